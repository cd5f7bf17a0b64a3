HEAD = r'''# Formal model of ethz-asl/aslam_incremental_calibration in Rocq (Coq 8.16.1)

## Method

* The C++ code was read as text; nothing was built or run. Every definition in a `*Model.v` cites the file and lines it models, and says where it simplifies.
* Stateful classes are records plus functions `state -> args -> state * result A` (or `outcome`), where `result` distinguishes normal
  return, each exception class, undefined behaviour (`UB`) and non-termination (`Diverge`, or `None` of a fuelled loop for every fuel). A C++ exception does not
  roll back: the returned state is the one the C++ object has when the exception leaves the method.
* Pointers to design variables, error terms and batches are opaque natural-number identities, a null `shared_ptr` is `None`. Batches
  are shared by pointer: the functions of `IncrementalOptimizationProblem` take the heap of batches as an argument.
* "For every history" is an inductive `reachable` predicate or a fold over an arbitrary list of operations, including calls that throw,
  unless the property says otherwise.
* What the code gets from outside (optimiser and linear solver results, random numbers, detectors, splines, Euler angles, clock) is
  a universally quantified argument of the model: theorems hold for every outcome.
* `double` is modelled per property, as stated in each file: exact reals (`R`, Coquelicot for derivatives and integrals),
  or IEEE binary64 (Flocq) where the point is rounding, NaN or overflow (Grid, Histogram, Normal, Randomizer, Timestamp). Theorems over `R` say nothing about rounding errors.
* Unsigned counters wrap at 2^64 where the code can decrement or overflow them.
* Where the unchanged code violates what a user would expect, the violation is proved (`..._refuted`, usually for every state in
  a class, at least with a concrete witness), and the strongest true property is proved beside it.
* Specifications are in `Spec_*.v`, written without the model's helpers; the theorems of the manifest are in `Properties_*.v`, each file ends with
  `Example`s that show that the hypotheses are met by concrete non-trivial cases and with `Print Assumptions`.
* Wrong programs: `seeded/LOG.jsonl` records one line per deliberately wrong edit of a model definition (made by `tools/mutate.py` in a
  scratch copy), the claim it breaks and the theorems that then fail.
'''
FILES = r'''| Files | Code |
|---|---|
| `Base` | outcome type |
| `Permute*` | `algorithms/permute.tpp` |
| `OptProblem*`, `Spec_OptProblem`, `OptSpecProofs` | `core/OptimizationProblem` |
| `IncProblem*`, `IncHistoryProofs`, `IncExtraProofs`, `IncSpecProofs`, `IncFailedAdd`, `Spec_IncProblem`, `Spec_IncFailedAdd` | `core/IncrementalOptimizationProblem` |
| `Estimator*`, `Spec_Estimator`, `Properties_CoreExtra` | `core/IncrementalEstimator` (and permutations, refused removals of the incremental problem) |
| `Grid*`, `Histogram*` and specs | `data-structures/Grid`, `statistics/Histogram1v` |
| `VectorDV*` | `data-structures/VectorDesignVariable` |
| `Normal*`, `NormalMv*`, `GaussIntegral`, `Uniform*`, `Gamma*`, `Functions*`, `Randomizer*`, `CoqDerive` | `statistics/*`, `functions/*` |
| `Geometry*`, `MatrixOps*`, `Timestamp*` | `geometry/Transformation2d/3d`, `algorithms/matrixOperations`, `base/Timestamp` |
| `Calibrator*` | `CarCalibrator`, time-delay and egomotion `Calibrator` (queues, windows, error terms, segments), `OptimizationProblemSpline` |
| `ErrorTerm*` | error terms of the 2dlrf, car and time-delay examples |
| `Geodetic*` | car `geo/geodetic`, `algo/bestQuat` |
| `DesignVars*` | `OdometryDesignVariables`, egomotion `DesignVariables` |
| `Camera*` | `CameraCalibrator`, `CameraValidator` |
| `Vision*` | `VisionDataAssociation` |
| `LrfSim*`, `LrfDriver*` | 2dlrf `utils`, `simulate-offline`, `simulate-online`, `simulate-online-new` |
| `SimEngine*`, `Properties_EgoSim`, `Properties_EgoData` | time-delay and egomotion `simulationEngine` |
| `Kinematics*` | car, time-delay calibrators: spline initialisation, kinematic expressions of the error terms, predictions |
| `EgoKin*` | egomotion calibrator: dead reckoning, motion error terms, predictions |
| `Options*`, `Spec_Options` | constructors from a `PropertyTree`: estimator, linear solver, calibrator options, simulation and trajectory parameters |
| `Solver*` | `aslam_tsvd_solver/src/aslam-tsvd-solver.cc` and its use by the estimator |
| `SimDriver*`, `Properties_SimRun` | main loops of the time-delay and egomotion simulators; `splinesToFile.cpp` |
| `CarDriver*` | car `realworld/calibrator`, `realworld/analyzer`: the loop over the log |
| `CameraDriverModel`, `CameraOptionsModel`, `Properties_CameraDriver`, `Properties_CameraFile`, `Properties_CameraOptions` | camera example: programs, calibration file, configuration |
| `Text*`, `Spec_Text` | `exceptions/*`, `base/Serializable`, the `write`/`read` methods |
| `ValidatorModel`, `Properties_ValidatorProgram` | camera `validateCamera` |
| `PoseJacobianModel`, `Spec_PoseJacobian`, `Properties_PoseJacobian` | `ErrorTermPose::evaluateJacobiansImplementation` (car, time-delay) |
| `Singleton*` | `base/Singleton.tpp` |
| `Python*` | `incremental_calibration_python/src`: lifetimes |
| `Properties_Tighten*` | theorems added because wrong programs survived the others |
'''
PLAN = {}
def plan(ids, model, how):
    for i in ids.split():
        PLAN[i] = (model, how)
plan("C01 C02", "`permute` as fuelled loop", "cycle-chasing invariant; every swap keeps the multiset; pigeonhole for termination")
plan("C03", "`permute` as fuelled loop", "the orbit of an index under the vector; pigeonhole: an orbit that stays below i for i+1 steps stays there")
plan("C04 C05 C06 C07 C08 C09 C10", "all six members of `OptimizationProblem`", "well-formedness invariant by induction over histories; refinement to the flat list of variables")
plan("C11 C12 C13 C14 C15 C16 C17 C18 C55 C56", "`IncrementalOptimizationProblem` over a heap of batches, counts modulo 2^64", "reference-count invariant over histories; add/remove inverse; concrete histories for the refutations")
plan("C19 C20 C21 C22 C23 C24 C25 C57 C58", "`IncrementalEstimator` with arbitrary optimiser and solver outcomes", "case analysis over the layers below; induction over histories of add/remove/reoptimize")
plan("C26 C27 C28 C29 C30", "`Grid` with abstract coordinates, instances R and Z", "mixed-radix bijection by induction on the dimension; floor arithmetic")
plan("C31 C32", "`Histogram1v` on the grid model", "induction over samples; sums")
plan("C59", "`Grid`, `Histogram` over Flocq binary64", "Flocq rounding lemmas; computed witnesses")
plan("C33", "`VectorDesignVariable`", "induction over histories")
plan("C34 C35 C36 C61", "normal distributions and ML estimators over R", "sums, Cholesky algebra, Gaussian integral (proved in `GaussIntegral`)")
plan("C60", "normal distribution over binary64", "computation, Flocq comparison lemmas")
plan("C37 C38", "uniform distributions over R and Z", "algebra, integrals")
plan("C39 C62 C63", "gamma and chi-square over R", "Coquelicot integrals, induction on the shape for integer shapes, digamma as parameter")
plan("C40 C41 C64 C65 C66", "`Randomizer` over a stream of generator outputs, R and binary64", "case analysis, termination of rejection loops, counting of outputs, witnesses")
plan("C42", "log-factorial functions over R", "induction")
plan("C43 C44 C67", "transformations over R", "ring/trigonometry")
plan("C45", "`computeSumLogDiagR` over R", "induction over columns")
plan("C46 C69 C70 C71 C72 C73 C74", "measurement queues, windows and error terms of the three calibrators; splines and estimator arbitrary", "induction over measurement streams")
plan("C75 C76", "`OptimizationProblemSpline` on the problem model", "induction over histories")
plan("C47", "design variable classes on the problem model", "computation of all entries for arbitrary values")
plan("C48 C77", "`CameraCalibrator` on the estimator model", "induction over images and histories")
plan("C78 C79", "statistics and validator over R", "sums")
plan("C49 C52", "quaternions, WGS84 and local frames over R", "ring/trigonometry, derivative of the meridian")
plan("C50 C51", "error terms and Jacobians over R", "`derivable_pt_lim` for every entry")
plan("C116", "Jacobian of the pose error term over R; the library's perturbation convention as specification", "half-angle formula for the derivative of reduced angles; uniqueness of the S matrix; `nsatz`")
plan("C53 C80", "`VisionDataAssociation`; pipeline and matcher arbitrary", "induction over frames")
plan("C54 C68", "`Timestamp` over binary64", "Flocq")
plan("C81 C82 C83", "2D laser simulator over R", "induction over steps, trigonometry")
plan("C84 C85", "2D laser programs on the estimator model / over R", "induction over rounds")
plan("C101", "estimator model with three kinds of solver failure", "case analysis over the exact description of reoptimize")
plan("C102 C103 C104", "the constructors that read a property tree, the tree as an arbitrary function from keys to entries", "inversion of the chain of reads; induction over the sensors; witnesses")
plan("C86 C87 C88", "time-delay simulator over R", "quaternion algebra (Rodrigues), induction over steps")
plan("C89 C90", "egomotion simulator over R, splines arbitrary", "induction over steps and times; rigid-motion algebra")
plan("C91 C92 C93 C94", "the loop of the car programs over the messages of a log, on the calibrator model", "induction over the log with projections to each kind of measurement; rigid-motion algebra")
plan("C95 C96 C97", "the kinematic expressions the error terms are built from, the poses the splines are fitted to and the predictions, over splines given as functions of time", "derivatives of rigid motions; rotation algebra; induction over the stored measurements")
plan("C98 C99 C100", "the egomotion calibrator with its integrated pose, the motion error terms and the predictions", "algebra of rigid motions; invariants over histories; a simulation relation up to a rigid motion")
plan("C105 C106", "the adapter of the linear solver on an arbitrary library, and the estimator above it", "case analysis; induction over the calls")
plan("C113 C114", "the text of exceptions and objects as strings, the overload chosen by the static type of the stream", "strings are cut at the first bracket or newline; induction over chains of insertions")
plan("C117", "`NormalDistribution<M>` with Eigen's decompositions by contract", "forward substitution in the Cholesky factor turns the quadratic forms into sums of squares; t - 1 - ln t >= 0 for the divergence")
plan("C118", "`Singleton<C>`: one thread as a state machine, several threads as interleavings of single accesses", "invariant of reachable states and of all schedules; concrete schedules for the refuted part")
plan("C119", "which Python and C++ objects keep each other alive, as a graph; calls change the graph and touch objects", "paths in the graph are preserved by calls that remove no edge; closed sets of nodes for the refuted part")
plan("C115", "the loop of validateCamera on the validator model, the image writer as a parameter", "induction over the log from the end")
plan("C110 C111 C112", "the camera programs on the calibrator model, the calibration file as a list of keyed values, the options on the model of the property tree", "induction over the images; case analysis; injectivity of the numbered keys")
plan("C107 C108 C109", "the simulators' main loops on the calibrator and simulation models; the spline writers", "induction over the measurements and the sampled points")
plan("C120", "the type classification and the uniform distributions over unsigned integers and integer vectors", "the area as the number of points of the box, sums over the box, integrals")
plan("C121", "the samplers over an integral type (the same model with integral draws); samplePoisson with Flocq's binary64 operations", "induction over the draws")
plan("C122", "the estimator model of C34 with Flocq's binary64 operations", "exactness of sums of integers below 2^53, standard rounding-error analysis of the variance formula, evaluation for the refuted part")
plan("C123", "the printing loops (a missing row is undefined behaviour), on top of the estimator, incremental problem and design variable models", "invariant: if all batches bring the same list in the marginalised group, every optimizer start sees that list in that order")
plan("C124", "the sampler model of C40; a separate definition of the volume of a part of the unit cube as an iterated Riemann integral", "the set of random numbers that give a result, then its volume by induction over the number of draws (Poisson, gamma with integral shape), by an interval (the others), by substitution (gamma with a shape below one), or by slices of the unit square under the curve the polar method maps to a constant, whose area is a Gaussian integral, and a recursion over the attempts (normal); for the gamma distribution with integral part and fraction, the recurrence between the incomplete gamma integrals of neighbouring shapes, by parts, gives the volume of the sum of the exponential and the fractional sample")
plan("C125", "`TextObjectsModel`: the texts in terms of the members of the objects modelled elsewhere; Randomizer objects and their seeds", "the texts against a separate grammar of named values (`Spec_Document.v`), with the theorems about the values (C34, C37, C47, C61, C63)")
plan("C126", "`DeviationsModel`: the writing loop over the diagonal of the covariance, a missing entry is undefined behaviour; the estimator model", "invariant over all sequences of addBatch: the covariance is empty or has one diagonal entry per optimised component")
plan("C127", "`CarFilesModel`: what each step of the reading loop writes, next to the loop of `CarDriverModel`", "each step writes one line per call it makes; then induction over the log, with the steps of a proper log")
plan("C128", "`HistoryFilesModel`: the writing loops over the histories of the calibrator model", "the lines of a text as a separate function; the invariant of the histories (C46)")
plan("C129", "`FunctionObjModel`: objects of six classes in a growing list, their constructors, copies, assignments, setters, virtual getValue and operator()", "kind and last parameter of an object read off the program backwards; invariant over all programs")
plan("C130", "`ValuesModel`: copy constructors and assignment operators member by member, programs over a growing list of objects of one class; that members are not shared between objects is built in", "the biography of an object read off the program backwards; invariant over all programs")
plan("C131", "`TemplatesModel`: types, type expressions and their instantiation by the matching specialisation, substitution failure as None", "induction over formulas; all types by cases")
NOTMODELLED = r'''## What is and is not modelled

Modelled: the functions listed above, at the granularity of one C++ function per definition. Not modelled: external libraries (aslam_backend
optimiser, truncated_svd_solver numerics, Eigen, sm, boost, ROS, OpenCV, camera models, bsplines) except as arbitrary parameters or, where their documented
function is needed (Eigen LLT, sm_kinematics quaternions), as their mathematical meaning; threads; memory allocation failure;
logging and file output except those listed (C109, C111, C113, C114, C123, C125, C126, C127, C128); the digits of floating point numbers; the python bindings except for the lifetimes of the objects (`PythonModel.v`); plot scripts; `main` functions other than those listed.
'''
FINDINGS = r'''## Findings (behaviour of the code a user would not expect; the theorem that establishes each is in the manifest)

* permute: loops for ever on some in-range index vectors with duplicates (C03).
* IncrementalOptimizationProblem: a failing add leaves variables behind (C15); clear keeps the value backup (C17); mutating a batch after add makes counts wrap (C18).
* IncrementalEstimator: throwing addBatch keeps the batch (C23); margStartIndex of the linear solver is stale after a rejection (harmless, C25).
* IncrementalEstimator: a reoptimize whose marginal analysis throws publishes the new scaled statistics next to the old rest (C101); a negative groupId wraps (C102).
* Configurations: the car's wheel speed cutoff is truncated to 16 bits, an absent translation spline order is uninitialised (C103); the time-delay start pose cannot be configured, repeated egomotion sensor ids overwrite each other (C104).
* Grid: negative indices pass the checks (C30); centre of the last cell may be out of range, integral grids with negative minimum truncate toward zero (C29); with
  doubles an in-range point can get index = cell count, NaN/overflowing extents pass the constructor (C59).
* Normal: NaN variance accepted, weighted estimator on an empty range publishes NaN as valid (C60); rejected covariance overwrites the Cholesky factor (C36); n*n wraps at 2^32 points (C34).
* Uniform: mean and median are half the width (C37); multivariate covariance uses the total area (C38). Gamma: KL divergence wrong and possibly negative (C39); chi-square median negative below 2/9 degrees (C63).
* Randomizer: end points of integral sampleUniform have half weight (C64); double sampleUniform can exceed max, integral sampleNormal never returns,
  sampleGeometric undefined for tiny p (C40); categorical can return a zero-probability category (C41); constructor seed ignored, first default construction reseeds (C66).
* Transformations: second inverse wrong (C44); inverse after setTransformationMatrix uses stale rotation (C67). computeSumLogDiagR does not check the row bound (C45).
* Timestamp: negative times give negative nanoseconds, NaN/huge undefined (C68); add/subtract not inverse (C54).
* Calibrators: rear wheel variances ignored (C70); window with one time stamp undefined (C71); egomotion calibrator stuck after a reference gap (C72); estimator exception loses the window (C73); first
  motion of each window unused, unsorted stamps compared over the wrong interval (C74).
* Error terms: front wheel Jacobian has the wrong sign when rolling backwards, steering Jacobian 0/0 at standstill (C50); setCovariance without effect (C51).
* Car getParameters: entry 11 overwritten, entry 21 uninitialised (C47). OptimizationProblemSpline: clear keeps the splines, rejected addSpline leaves a prefix; the egomotion copy checks spline indices in debug builds only (C76).
* Camera: exception during optimisation is fatal, full batch never retried (C77); getTransformation(i) is not the pose of observation i after two accepted batches (C48); printed average divides by all corners (C79).
* Vision: thresholds never initialised (C80); reference frames not stored, so match sources dangle (C53).
* 2D laser: motion error term does not wrap the heading (C82); initLandmarks undefined for short data (C83); batch size 0 never ends (C84); last partial batch read out of bounds (C85).
* Time-delay simulator and calibrator disagree on the sign of the delay (C88). Egomotion combined trajectory jumps between phases (C89); missing calibration throws, zero step never ends (C90).
* Car programs: NED variances attached to ENU and body coordinates (C92); odometer time -1 is the "no message yet" mark (C93); wrong message type or shared topic undefined, no performance message: nothing estimated, silently (C94).
* Egomotion: predict() and failed windows integrate the reference motions again (C98); a measurement of an uncalibrated sensor blocks the calibrator for ever (C100).
* Linear solver adapter: a throwing solve leaks a matrix (C106); the estimator ignores a failed marginal analysis (C105).
* Egomotion simulator: a delayed sensor can make the final flush throw before any result is written (C108). Spline writers: never end for periods below 1 ns, null pointer for batches without splines (C109).
* Camera programs: an empty last batch, nothing but an exception for a log without target (C110); writing the calibration file without an accepted batch is undefined, standard deviations depend on addresses (C111);
  negative batch sizes, group ids that nothing compares (C112); the shipped conf/config.xml is not well-formed (`<rows>6</cols>`).
* validateCamera saves an older image under the time stamp of an image without target, and may end without a report if the log does not begin with the target (C115).
* Singleton: simultaneous first calls can throw or give two objects (C118). Python: a problem from getOptimizationProblem dangles after the batch is removed (C119).
* Randomizer over an integral type: Poisson samples ignore the mean, exponential and geometric samples are 0, gamma samples 0 or infinite, inner categories never sampled; in doubles Poisson means above about 746 are indistinguishable (C121).
* EstimatorML in doubles: different points can be rejected and equal ones accepted; one infinite or not-a-number point makes every later estimate valid with a not-a-number variance (C122).
* History files of the example programs: windows for which addBatch threw have no line, rejected windows have one (C128).
* LogGammaFunction<size_t> derives from LogFactorialFunction but gives ln (n-1)! and throws at 0 (C129).
* tpl: IsInteger holds for every type but float and double, also void, const double and long double; Or of two types that are no truth values is True (C131).
* Verbose observability report: labels are fixed although inactive variables have no row: wrong numbers under some names and reads beyond the matrix; always so for the car calibrator (C123), whose program also reads beyond the variances when it writes deviations.txt (C126).
* UniformDistribution: a support that is a whole unsigned type has area 0 and variance -1/12; long double is treated as an integer (C120).
* Streams: an object inserted directly into an `std::ofstream` writes nothing (except a vector design variable), reading does nothing (C114); the seed a Randomizer prints need not be that of its samples (C125); a NUL hides the rest of an exception's text (C113).
* Pose errors of exact measurements at pitch 90 degrees (C96). predict() with fewer than two poses is undefined; the steering prediction is an angle, not a raw steering value; time-delay wheel predictions
  are ground speeds stamped with the raw time while the errors use the forward velocity and the car stamps the delayed time (C97).
'''
TRUSTED = r'''## Trusted base

* Coq 8.16.1's kernel, including `vm_compute` where used; no `native_compute`, no plugin, no switched-off check.
* The standard library's axioms only: those of the classical reals (`ClassicalDedekindReals.sig_forall_dec`, `sig_not_dec`), `functional_extensionality_dep`, and (through Coquelicot, Flocq and the trigonometric
  functions) `Classical_Prop.classic`. No axioms of our own; no Admitted; no Variable/Hypothesis outside sections. std++, Coquelicot and Flocq add no axioms.
* The reading of the C++ code into Gallina, the specifications in `Spec_*.v`, and the definitions used in the statements.
'''
