"""Titles and statements of the properties for which what a user would first expect is refuted: the statement says exactly what
holds for all inputs, and names after "Not guaranteed" the stronger expectation for which a counterexample is proved
(the theorems *_refuted of the claim)."""
R = {}
def r(pid, title, statement): R[pid] = (title, statement)
NG = " Not guaranteed (counterexample proved): "

r("C15", "What a failed IncrementalOptimizationProblem::add leaves behind",
  "A throwing add leaves the batches and the value backup unchanged, removes no variable and changes no group; a null batch, and a batch whose conflict is on its very first variable in an existing group, leave no trace; in general exactly the variables enumerated before the first conflict (all, if the failure is a shared error term) stay with one reference more, and the new groups of these and of the conflicting variable stay in the ordering." + NG + "that a throwing add has no effect; it fails for both causes of failure.")
r("C17", "What clear makes the incremental problem forget",
  "clear() removes all batches, variables, error terms, groups and the ordering; the value backup survives: restoreDesignVariables() does after clear() exactly what it did before, also for variables that are no longer in the problem, and saving the empty problem erases nothing. OptimizationProblem::clear() also forgets the backup." + NG + "that a restore after clear() has no effect.")
r("C18", "Removing a batch that was changed after it was added",
  "A batch not changed after add() is removed cleanly. If the batch object has become any other problem, remove() returns, takes the batch out, and afterwards a variable is reported exactly if the number of contained batches with it, as they were when added, is not zero (variables not in the changed batch) respectively not one (variables in it): a variable added to the batch in the meantime is reported for ever, in group 0 and with count 2^64-1, and one it lost stays." + NG + "that the reference counts stay right.")
r("C23", "What a throwing addBatch leaves behind",
  "A throwing addBatch never changes the published statistics or the options; values change only if the optimizer or the analysis threw, and only of variables in the problem; which exception is thrown when is characterised; an incompatible batch is not kept, a compatible one stays in the problem unless only rebuilding the solver after a rejection failed, in which case the rejection is complete. If no variable of the marginalised group is in the problem, every addBatch of a batch without one throws InvalidOperation, for ever." + NG + "that a throwing addBatch leaves the estimator unchanged.")
r("C30", "Grid: which indices are rejected",
  "getCell throws OutOfBound exactly when some component is at least its cell count; for any other index, negative components included, it is undefined if the position the strides give is negative and otherwise the cell at that position, which belongs to exactly one valid index; computing coordinates throws for exactly the same indices." + NG + "that a negative component is rejected: it can alias another cell.")
r("C34", "EstimatorML<NormalDistribution<1>>: running estimate equals the batch formula and is order independent",
  "After any list of at least one and fewer than 2^32 points (exact arithmetic) the mean is the arithmetic mean and the variance the population variance when positive; the estimate is flagged valid iff the variance is positive; adding points one by one or as a range, and in any order, gives the same result; reset forgets the past." + NG + "the same for any number of points; with 2^32+1 of them the squared count has wrapped and the estimate is declared invalid.")
r("C36", "What a rejected covariance does to NormalDistribution<M>",
  "A rejected covariance leaves mean, covariance, precision, determinant, normaliser and density as they were; one rejected for asymmetry changes nothing at all. An accepted covariance leaves factor, precision and determinant consistent with it." + NG + "that the Cholesky factor used for sampling is unchanged by a symmetric matrix that is not positive definite; getCovariance and getSample then disagree.")
r("C37", "UniformDistribution: support, density and moments",
  "setSupport throws iff min>=max leaving the support unchanged; pdf is 1/(max-min) inside and 0 outside (pmf 1/(max-min+1) for integers and sums to 1 over the support); the variance is that of the support; the mode is never defined; getMean and getMedian return half the width, in every coordinate, which is the midpoint exactly when the support starts at 0." + NG + "that the mean is the midpoint, or even in the support.")
r("C38", "Multivariate uniform covariance",
  "Off the diagonal the covariance returned is 0; the diagonal entry i is that of the box, w_i^2/12, exactly when w_i^2 equals the squared product of all widths; in particular for M=1." + NG + "that the covariance of the box is returned.")
r("C39", "GammaDistribution KL divergence",
  "The divergence from a distribution to itself is 0, and the one returned agrees with the Kullback-Leibler divergence, the integral of p ln(p/q) over the positive half line, exactly when (a_q-1)(psi(a_q)-psi(a_p))=0." + NG + "agreement in general; the value returned can even be negative.")
r("C40", "Randomizer: samples stay in their documented range",
  "For every outcome of the underlying generator, in exact arithmetic: sampleUniform(min,max) lies in [min,max] (an integer for integral types whose width does not overflow; undefined if it does) and throws iff max<=min; sampleNormal uses the first pair with 0<s<1 and ends iff there is one; sampleCategorical returns an index < number of categories; samplePoisson, sampleExponential, sampleGeometric and sampleGamma give the values of their inversion or rejection methods, never negative, and throw exactly for parameters outside their domain. In doubles sampleUniform is never below min and never above min+(max-min) as rounded, sampleUniform() is in [0,1], and sampleGeometric is defined exactly when the quotient fits its type." + NG + "that in doubles sampleUniform stays below max, that sampleNormal for integral types ever ends, and that sampleGeometric is defined for tiny probabilities.")
r("C41", "sampleCategorical and categories of probability zero",
  "If the probabilities sum to exactly 1 and the number drawn is not 0 the returned category has positive probability." + NG + "the same when the number drawn is 0 (category 0 is returned whatever its probability) or the sum is 1 only up to the tolerance of the constructor.")
r("C44", "Inverting a transformation twice",
  "Inverting twice gives the original back exactly when the rotation leaves the translation fixed (in 2D: no rotation or no translation); the result of any number of inversions is characterised." + NG + "that a second inversion undoes the first.")
r("C47", "OdometryDesignVariables: what is calibrated and exported",
  "In all three examples addToBatch adds exactly the listed variables, once and in order, active as configured; getParameters lists their values in this order, each exactly once, in the time-delay and egomotion examples. In the car example entry 11 is the DMI delay instead of the last steering coefficient, entry 21 is never set, and all others are as listed." + NG + "that the car's getParameters exports every calibrated parameter.")
r("C48", "CameraCalibrator: batching and observation bookkeeping",
  "A batch is handed to the estimator exactly every batchNumImages accepted images; images before geometry initialisation are refused and initialisation is permanent; while the estimator does not throw no image is lost or used twice; getTransformation is defined exactly for indices in range, and is the pose of the observation with the same index as long as at most one batch was accepted." + NG + "the latter after two accepted batches: observations are inserted at the front.")
r("C50", "Error-term Jacobians are the derivatives of the residuals",
  "For the 2D laser range finder motion and observation error terms and the car's steering, velocity and wheel error terms the Jacobians handed to the optimizer are the derivative of the evaluated residual along every differentiable motion of the variables, wherever the residual is differentiable and the Jacobian defined (steering: the wheel does not move exactly sideways; a front wheel: it rolls forwards). For a front wheel rolling backwards the derivative is the Jacobian with the sign of the speed row of the velocity block changed." + NG + "that the Jacobian is right for a front wheel rolling backwards.")
r("C51", "The weight of an error term is that of its first covariance",
  "Whatever covariances are set after construction, the weighted squared error is the one of the covariance given to the constructor, while getCovariance returns the one set last." + NG + "that setCovariance changes the weight.")
r("C53", "VisionDataAssociation: frame ids and stored frames",
  "Stored frames have pairwise different ids, strictly increasing in insertion order; every match leads to the stored frame it was computed for, and it leads back to its reference frame exactly if that frame was stored; reset forgets frames, matches and reference frame and goes on with the numbering." + NG + "that the reference frame of every match is stored; the first one never is.")
r("C54", "Timestamp is totally ordered and arithmetic is consistent",
  "On timestamps that are not NaN the comparison operators agree with each other and form the total order of the values, infinities included, also against doubles; sums and differences are the correctly rounded ones, adding a non-negative duration never gives an earlier time, and (t + d) - d = t whenever t + d is exact." + NG + "(t + d) - d = t in general, and any order for NaN.")
r("C59", "Grid and Histogram with IEEE doubles: lookups never hit undefined behaviour",
  "Once a grid of doubles is constructed, looking up any point (NaN and infinities included) returns a cell or throws OutOfBoundException; a point out of range always throws; the computed index is never negative and never exceeds the cell count. Adding a sample to a histogram adds one to one bin, or changes nothing (out of range or exception)." + NG + "that every in-range point has a cell (rounding makes the index equal to the cell count for some), and that the constructor is defined for NaN or overflowing extents.")
r("C60", "NormalDistribution<1> and EstimatorML<NormalDistribution<1>> in IEEE doubles: accepted variances",
  "In every reachable distribution over doubles the variance is not <= 0: it is positive or NaN." + NG + "that it is not NaN: a NaN variance is accepted, and the weighted estimator run on an empty range publishes NaN mean and variance flagged as valid.")
r("C64", "Randomizer: the distribution of integral sampleUniform",
  "For integral types the value returned is min + round(r/RAND_MAX*(max-min)): for every value the set of generator outputs that give it is the interval of the outputs r with (2j-1) RAND_MAX <= 2 r (max-min) < (2j+1) RAND_MAX." + NG + "that all values are equally likely: the two end points get only half the outputs of an interior value.")
r("C66", "Randomizer: when seeding makes the samples reproducible",
  "After setSeed(z) the numbers drawn depend on z only, as long as nobody reseeds and no Randomizer instantiation is default-constructed for the first time; the seed given to the constructor never has an effect, and the first default construction of another instantiation replaces the user's seed by one from the clock." + NG + "reproducibility in general.")
r("C67", "Inverting a transformation given by its matrix",
  "A transformation made from a matrix, or given one by setTransformationMatrix, uses this matrix in transform and gives it back, while after setTransformationMatrix inverse()/getInverse() give exactly what they gave before it, whatever the matrix." + NG + "that they undo the transformation set; after construction from a matrix they depend on uninitialised memory and may do anything.")
r("C68", "Timestamp: conversion to timespec",
  "For times in [0, 2^63) s, tv_sec + tv_nsec*1e-9 is within a nanosecond of the timestamp and 0 <= tv_nsec < 1e9; for negative times that can be converted tv_sec is rounded towards zero and tv_nsec is in (-1e9, 0], again within a nanosecond; the conversion is undefined exactly for NaN, infinite times and times outside the range of tv_sec." + NG + "normalised nanoseconds for negative times and a defined result for every time.")
r("C70", "Car calibrator: which variances weight the wheel errors",
  "The error terms made for a window are exactly the specified ones; those of the rear left and right wheels are weighted with the variances configured for the front left and right wheels, so rlwVariance and rrwVariance take effect only if they agree with those." + NG + "that rlwVariance and rrwVariance weight the rear wheels' error terms.")
r("C72", "Egomotion calibrator: a gap of the reference sensor is fatal",
  "While the reference sensor has a pending measurement and fit and estimator succeed, adding a measurement succeeds. Once a window has elapsed without a measurement of the reference sensor, every later addMotionMeasurement throws std::out_of_range and drops its measurement, also those of the reference sensor, for ever; such a state is reachable." + NG + "that calibration goes on when the reference sensor comes back.")
r("C73", "Calibrators: what a failing add call loses",
  "If building the splines throws, only the new measurement is lost; if the estimator throws, the whole pending window is lost too and no gain is recorded." + NG + "that an add call that throws does not touch the measurements already given.")
r("C74", "Egomotion calibrator: which motion measurements give an error term",
  "A window with n measurements of a sensor inside the spline's time range gives exactly n-1 error terms, between successive measurements if the time stamps are sorted." + NG + "that every measurement is used (the first of every window never is), and that with unsorted time stamps a motion is compared over its own interval.")
r("C76", "The splines an OptimizationProblemSpline lists and the variables it holds",
  "Without clear() the variables of every listed spline are in the problem, and without rejected addSpline calls the variables in the problem are exactly those of the listed splines; clear() removes the variables and keeps the list of splines as it was; a rejected addSpline leaves exactly the variables before the conflicting one and lists no spline; getSpline returns or throws as specified; in the egomotion example it throws in debug builds only." + NG + "that an index beyond the end throws in a release build of the egomotion example (it is undefined behaviour there), that the variables of listed splines are in the problem after clear(), and that every variable belongs to a listed spline after a rejected addSpline.")
r("C77", "CameraCalibrator after a failure of the estimator or a change of the batch size",
  "If the optimisation throws, the batch stays in the estimator: no observation is ever accepted again and every later processBatch throws InvalidOperationException. If the exception leaves after the batch has been removed, or the batch size is set to zero or to at most the number of images waiting, adding images never triggers processing again. A second processBatch in a row hands a batch without images to the estimator; before the first image it does nothing. A user who expects to be able to go on after an exception is therefore wrong in each of these cases.")
r("C79", "The average error norm printed by CameraValidator::getLastImage",
  "The average printed is the mean error norm of the compared corners times the fraction of corners compared; it is the mean if all corners are compared." + NG + "that it is the mean error norm: it is strictly smaller if a corner is skipped and some error is not zero.")
r("C82", "2D laser simulation: the error terms of simulated data are the simulated noise",
  "For any controls, landmarks and noise, the observation error of every simulated range and bearing at the true poses is exactly the noise that was added; the motion error is the noise plus a whole number of turns per time step, which is zero exactly if the heading was not wrapped in this step; along a sine wave path started with heading at most pi/2 away from the axis no wrap occurs." + NG + "that the motion error is the noise where the simulator wraps the heading (ErrorTermMotion does not wrap).")
r("C83", "initLandmarks: first sightings",
  "With as many measurement rows as poses, initLandmarks places every landmark where its first positive range puts it from the pose of that time step, and leaves never sighted landmarks at the origin; with exact data and poses it returns the true landmarks; without rows the output argument is left as it was." + NG + "that the output is defined with fewer measurement rows than poses.")
r("C88", "Time-delay simulator against calibrator: where the residual vanishes",
  "Without noise, the wheel error terms of the calibrator vanish for the true scale factor, base line and velocity; with noise they are the scaled noise. With respect to the delay they vanish for minus the simulated delay, for all motions; with the simulated delay itself they vanish exactly where the wheel moves as fast as two delays later." + NG + "that they vanish for the simulated delay.")
r("C89", "Egomotion simulator: trajectory",
  "With a positive step the trajectory has one pose per step, starting from the initial one, stamped k secToNsec(dt), each following from the previous one by the motion model with the velocities commanded for that type (straight: unit speed along the initial x axis; sine; random with noise; combined: all three in thirds), with unit quaternions on the side of the previous one; with a step that is not positive it never ends. In the combined trajectory the first step of the sine and random phases starts again from the origin of the curve and covers the whole way since then." + NG + "that no step is longer than the others.")
r("C92", "Car programs: the variances of poses and velocities",
  "The variances attached to every position are the squared north, east and down errors, in this order, to coordinates that are east, north, up; those attached to every velocity the squared north, east and down errors to coordinates of the vehicle. For the position this is the covariance expressed in the coordinates iff the north and east variances agree, and it is for every pose when all three agree." + NG + "that the variances are expressed in the axes of the measurement (position: north and east differ; velocity: vehicle heading east).")
r("C93", "Car programs: wheels, steering and odometer",
  "Every wheel and steering message of an active sensor yields exactly one measurement with the values of the message, in order, stamped by that sensor's own corrector; inactive sensors yield none. Odometer messages (with times other than -1 s) yield one measurement for each but the first: the distance travelled since the previous message over the time since then, so that the measured speeds times the elapsed times sum to the distance travelled." + NG + "the same for a message with time -1 s, after which the next one is skipped as if it were the first.")
r("C94", "Car programs: from the log to the calibrator",
  "Every measurement read is given to the calibrator in order; when the program ends normally, either nothing is left unprocessed or fewer than two poses were left at the end (whose window is then silently not used)." + NG + "a diagnosis for a log that is not as configured: a message of another type on an active topic, or two sensors on one topic, is undefined behaviour; a log without performance messages silently yields no pose and no calibration.")
r("C96", "Car and time-delay calibrators: a window's splines start from the measured poses",
  "The positions and rotations the splines are fitted to put the navigation system, through its current lever arm and mounting, exactly where it was measured, so that splines through them have no pose error except possibly at pitch +-90 degrees." + NG + "zero error of an exact measurement at pitch +-90 degrees, whichever angles the library extracts.")
r("C97", "Car and time-delay calibrators: predictions report what the batch would contain",
  "With at least two stored poses predict() reports, for every measurement that yields error terms and for no other, the delayed time, the errors and the squared error of exactly the error terms addMeasurements() would create for the same stored measurements, and in the car example the predicted value is the measurement minus the error (wheels, odometer, poses up to angle wrapping; for the steering the predicted value is the wheel angle), as it is for the time-delay example's poses; the splines are those the library fits to all stored poses with one request whose number of segments follows from the options and the times; predictions accumulate until cleared." + NG + "that predict() is defined with fewer than two stored poses, and that the time-delay example's predicted wheel speeds agree with their errors (they are ground speeds: they agree iff the wheel does not move sideways).")
r("C98", "Egomotion calibrator: dead reckoning and the effect of predictions on it",
  "The splines of a window have as many segments as the knots per second ask for, or one per measurement if the measurements are rarer; they are fitted to poses that start where the previous window ended, at the beginning of the first motion, and of which each follows from the one before by the measured motion of the reference sensor at its time stamp; splines through these poses satisfy the reference sensor's error terms exactly. While no call fails and nothing is predicted, every motion of the reference sensor is integrated exactly once, in order. For every spline fit that commutes with rigid motions, leaving out all calls about predictions gives the estimator the same error terms and all other calls the same outcome." + NG + "that predict() changes nothing: it moves the start of the next splines on by the motion of the pending window, which is then integrated again.")
r("C100", "Egomotion calibrator: a measurement of a sensor without calibration is fatal",
  "A measurement of a sensor without calibration is accepted silently; as soon as the window has elapsed every later add call of any sensor fails and drops its measurement, no batch is ever given to the estimator again, and every attempt integrates the pending motions of the reference sensor once more; such a state is reachable." + NG + "an error for that measurement only.")
r("C101", "IncrementalEstimator: what a throwing reoptimize or removeBatch publishes",
  "reoptimize() returns iff the marginalised group is in the problem and optimizer and analysis return; it never changes the problem; if it throws, all statistics are unchanged, except when the marginal analysis fails after the optimizer returned: then exactly the scaled covariance, bases and singular values are those of the new estimate and everything else published is that of the old." + NG + "that a throwing reoptimize() or removeBatch() leaves the published statistics consistent.")
r("C102", "IncrementalEstimator: construction from a configuration",
  "The constructor from a property tree returns exactly when groupId is an integer, every other key present (infoGainDelta, checkValidity, verbose, the linear solver's keys) converts to its type and the optimizer accepts its part; every option then has the value of its own key, or its default if the key is absent; the group is the one given modulo 2^64." + NG + "that a negative groupId is refused.")
r("C103", "Calibrators of the examples: options from a configuration",
  "For each of the three calibrators the options read are exactly those that agree, key by key, with the published table of keys, and the constructor throws exactly when some required key is absent or malformed; the wheel speed cutoff is taken modulo 65536, and the order of the translation spline, if absent, is uninitialised memory." + NG + "that the cutoff keeps its value and that the absent order is the default 4.")
r("C104", "Simulators of the examples: parameters from a configuration",
  "The simulation parameters read are exactly those under the published keys (time delay: wheel factors, delays, variances, mounting, trajectory, the start pose always being the identity; egomotion: for every sensor id the mounting, delay and noise of the last entry with that id, one noise entry more than sensors)." + NG + "that the number of sensors simulated is the number configured: entries with the same id overwrite each other silently.")
r("C105", "Linear solver adapter: what it passes to the solver and how failures surface",
  "solveSystem() and analyzeMarginal() hand the library the transpose of the Jacobian built last, the configured start of the marginalised columns and (solve) the current errors; they return true exactly when the library returned and otherwise fail exactly as the library does; they return false, leaving solution and solver untouched, exactly when the transposition gives no matrix; initMatrixStructure() clears the library's solver, builds the structure and ends the process for a diagonal conditioner." + NG + "that a failed analysis reaches the user: the estimator ignores the false of analyzeMarginal() and publishes the statistics of the scaled system as those of the unscaled one; and rhsJtJrhs() is always 0.")
r("C106", "Linear solver adapter: which matrices are released",
  "Over any sequence of initMatrixStructure, buildSystem, solveSystem and analyzeMarginal calls the number of live matrices grows by exactly one for every solveSystem() in which the library threw, and is otherwise unchanged." + NG + "that it never grows.")
r("C108", "Egomotion simulator program: every simulated measurement reaches the estimator",
  "When the program ends normally every simulated measurement of every sensor was handed to the estimator, in order and exactly once, and nothing is pending; it throws if the reference sensor is not simulated; if no sensor is delayed and neither fit nor estimator fails it ends normally." + NG + "that it ends normally with delays: a delayed sensor after the reference sensor can close the last window, after which the flush without any reference measurement throws before a result is written.")
r("C109", "Spline writers of the examples: sampled trajectory output",
  "For a period of at least a nanosecond the writer outputs, batch by batch and spline by spline, exactly the points at minimum time plus multiples of the period strictly before the maximum time (never the last one); a batch with fewer rotation than translation splines throws after the points before it; with a period below one nanosecond it never ends." + NG + "termination for every period, and a defined error for a batch without splines (a null pointer is dereferenced).")
r("C110", "Camera calibration program: every image with the target reaches the estimator",
  "If some image initialises the geometry and the estimator does not fail, the program ends normally; every image in which the target is found, also before the initialising one, is given to the estimator exactly once and in order, in batches of exactly the configured size and a last one with the rest (empty when the size divides the number); a failing estimator ends the program with its exception, also when it fails for the last batch, which exists as soon as one target was found; if no image initialises the geometry the program ends with an exception and hands over nothing. With image saving on, one image is saved for every batch accepted in the loop, the one that completed it." + NG + "that no batch is empty, that a log without target gives no exception, and that all images used are saved.")
r("C111", "Camera calibration file: parameters, their standard deviations and the estimator's results",
  "After at least one accepted batch the file contains every projection and distortion parameter under its name, under sigma_ and its name the square root of the entry of the covariance's diagonal for its position, the image size, the type, every singular value and every entry of the unobservable bases under its numbered key and both thresholds, and a validator reading the file uses the geometry the calibrator used; any type but omni and pinhole is refused. For the pinhole camera the standard deviations are those of the named parameters when the set of variables enumerates the projection first, and those of the distortion when it comes first." + NG + "the file without an accepted batch (undefined behaviour: empty vectors are read), and the right standard deviations when the distortion comes first in the enumeration of the set of variables.")
r("C112", "Camera calibrator and validator: options from a configuration",
  "The options read are exactly those that agree, key by key, with the published table: five detector options are required, all others have defaults; the calibrator exists exactly when the options and the estimator's part can be read and the type is omni or pinhole (otherwise BadArgument); the validator, given the calibrator's section, looks for the same target with the same settings; a negative batch size becomes huge, and the whole log becomes one batch." + NG + "that the defaults of the five detector options are used, that a negative batch size is refused, and that the estimator reports on the group the camera's variables are put into (two keys that nothing compares).")
r("C113", "Exceptions: the text tells where and why",
  "For texts without NUL, what() of an exception thrown by the library is the function, the message, the file and the line, followed by the offending argument and the bound, in this order, each exactly when given; copying and assigning keep it; for the same message and place, and printed values without closing bracket, two texts are equal only if line, argument and bound are." + NG + "the same for texts with NUL respectively values with a closing bracket.")
r("C114", "Printing an object to a stream",
  "Inserting objects and texts into a stream of static type ostream appends their descriptions; into a stream of static type ofstream, objects before the first text leave nothing, except vector design variables, which are written there as well. The description of a distribution or estimator determines its parameters as printed; the description of a grid or histogram announces exactly the number of cell lines that follow and determines every cell; extraction never changes object or stream." + NG + "that a file gets what the console gets and that reading restores what was printed.")
r("C115", "Camera validation program: the report covers the whole log",
  "validateCamera compares every image of the log; the maxima, the number of outliers and the error files cover all comparable corners of all images with a target, in the order of the log; with visualization and saveImages an image is saved under every time stamp, showing the last image with a target up to then, provided the first image has a target or the image writer accepts an empty image." + NG + "that the image saved under a time stamp shows the image of that time stamp, and that there is a report when the first image to save has no target.")
r("C116", "Pose error term: the Jacobian is the derivative of the error",
  "For the pose error terms of the car and time-delay examples the matrix handed to the optimizer is the derivative of the evaluated error with respect to the perturbation of the transformation, for every transformation whose pitch is not +-90 degrees and every measurement whose angle errors are not at the jump of the angle reduction." + NG + "a Jacobian everywhere: with the nose straight up or down a singular matrix is inverted.")
r("C118", "Singleton base class: one object, the same for every caller",
  "In every sequence of constructions, destructions and getInstance() calls by one thread there is at most one object; exists() says whether there is one; getInstance() returns it, creating it only if there is none, and returns the same object until it is destroyed; a second construction throws InvalidOperation and changes nothing; a failed constructor leaves no object. With several threads in getInstance() a null pointer is never dereferenced, and once the object exists all get it." + NG + "the same for simultaneous first calls: one thread can get an exception, or two threads two different objects.")
r("C119", "Python module: which programs never touch a destroyed object",
  "Whatever a Python program creates, looks up, adds, removes and drops, it never touches an estimator, incremental problem, linear solver or options object that has been destroyed; a program that never calls getOptimizationProblem, or in which no batch ever leaves an incremental problem, never touches any destroyed object, and a problem that the program made lives as long as its Python object has a name or an incremental problem that is alive holds it." + NG + "this of every program: a problem obtained from getOptimizationProblem is destroyed when the batch is removed, also if it was added to another incremental problem, and offering it again to the estimator that holds it can leave the estimator with a destroyed batch.")
r("C120", "UniformDistribution<X> over every arithmetic type and several dimensions: total probability one",
  "For float and double, for signed integers in one and several dimensions (when the support fits the type) and for unsigned integers when the support is not the whole type: for every support with minimum below maximum (in every component) the constructor succeeds and the probabilities of all values of the support add up to one (the density integrates to one for a floating type), every value in the support has the same probability and every other value has none; the stored variance is that of the values." + NG + "the same for the whole range of an unsigned type and for long double.")
r("C128", "History files of the example programs: one line per processed window",
  "Whatever measurements are added and whatever fails: infoGainHist.txt has exactly one line per window for which the estimator's addBatch returned, in order, with the information gain it returned; calibHist.txt has the initial parameters in its first line and then one line for each of the same windows with the parameters after it; every further call adds one line to both files or none to either; the egomotion simulator writes such a parameter file for every calibrated sensor, all under different names." + NG + "that line i belongs to window i (a window whose addBatch throws has no line), and that only accepted windows have a line (if all are rejected the initial parameters are repeated once per window).")
r("C129", "Function objects: a value depends on the parameter written last and nothing else",
  "Incomplete gamma, log-gamma, log-factorial and digamma objects, in exact arithmetic: whatever was constructed, copied, assigned, changed by setters and evaluated before, getAlpha/getDim return the parameter last given to this very object (a multivariate log-gamma made without a dimension has dimension one); operator() and getValue give the same value, that of the function for this parameter at the argument (the multivariate log-gamma by its recurrence, the log-factorial the logarithm of n!, the integer log-gamma that of (n-1)!, throwing BadArgument exactly at 0); evaluating changes nothing. If Boost's two incomplete gamma functions add up to one, so do a P and a Q object with the same parameter at any point of any program." + NG + "that an integer log-gamma object can be used for the log-factorial it is derived from.")
r("C131", "Type-level booleans compute the formulas they spell",
  "Every formula built from True, False, And, Or, Not, IfThenElse, Equals, IsVoid, IsReal (float or double), IsInteger (neither of them) and IsNumeric (one of six types) over any types, however deeply nested, compiles to True if it holds and to False otherwise; If<...>::Result and ...::Numeric exist exactly for formulas that hold; IfThenElse gives the first type if the formula holds and the second otherwise; of the two versions of a function selected by IsReal and IsInteger exactly one exists for each type." + NG + "that IsInteger holds only for integer types (void, const double and every class are 'integers'), that IsNumeric holds for them, and that And and Or of arguments that are no truth values are rejected.")
r("C43", "Transformations: getInverse undoes the transformation",
  "For a 2d/3d transformation set from pose parameters, getInverse() applied to the transform of a point gives back the point and vice versa, distances are preserved, and inverse() in place agrees with getInverse(). A copy and an assigned object cannot be told from the original: same matrix, and same effect on every point, also of the inverse, of the inverse of the inverse and so on.")
r("C52", "Geodetic frame conversions are rigid and mutually inverse",
  "enu2ecef/ned2ecef rotate orthonormally about the reference, ecef2enu o enu2ecef = id, and wgs84ToEcef is injective in height direction along the ellipsoid normal; heights of zero lie on the ellipsoid whose equator is 6378137 m and whose poles are 6356752.3142 m from the centre (the standard's value to a tenth of a millimetre).")
