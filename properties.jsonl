{"id": "C01", "title": "Spatial weights lie in [0,1]", "statement": "For every kernel, every positive effective bandwidth and every vector of non-negative distances, BandwidthWeight::weight returns one weight per distance and each weight is a finite number between 0 and 1.", "quantifier": "all kernels, all bandwidths giving a positive effective bandwidth, all distance vectors of any length", "why_tests_cant": "The claim ranges over all real distances and bandwidths and all vector lengths.", "anchors": ["src/gwmodelpp/spatialweight/BandwidthWeight.cpp: BandwidthWeight::weight", "include/gwmodelpp/spatialweight/BandwidthWeight.h: *KernelFunction"]}
{"id": "C02", "title": "Weights never increase with distance", "statement": "Within one weight vector, a point that is farther from the focus never receives a larger weight than a nearer point.", "quantifier": "all kernels, bandwidths, distance vectors and pairs of points in them", "why_tests_cant": "Monotonicity is a statement about all pairs of reals.", "anchors": ["src/gwmodelpp/spatialweight/BandwidthWeight.cpp: BandwidthWeight::weight", "include/gwmodelpp/spatialweight/BandwidthWeight.h: *KernelFunction"]}
{"id": "C03", "title": "Zero distance gives full weight", "statement": "A point at distance zero from the focus receives weight exactly 1 under every kernel with a positive effective bandwidth; no point receives more.", "quantifier": "all kernels, positive bandwidths and distance vectors", "why_tests_cant": "Universally quantified over reals.", "anchors": ["src/gwmodelpp/spatialweight/BandwidthWeight.cpp: BandwidthWeight::weight", "include/gwmodelpp/spatialweight/BandwidthWeight.h: *KernelFunction"]}
{"id": "C04", "title": "Compact kernels vanish exactly outside the bandwidth; smooth kernels never vanish", "statement": "With Bisquare, Tricube and Boxcar a point has weight 0 if and only if its distance is at least the effective bandwidth; with Gaussian and Exponential every weight is strictly positive.", "quantifier": "all kernels, bandwidths and distances", "why_tests_cant": "The boundary behaviour concerns an uncountable set of inputs.", "anchors": ["src/gwmodelpp/spatialweight/BandwidthWeight.cpp: BandwidthWeight::weight", "include/gwmodelpp/spatialweight/BandwidthWeight.h: *KernelFunction"]}
{"id": "C05", "title": "Adaptive bandwidth is the interpolated k-th nearest distance", "statement": "For an adaptive bandwidth b with 1 <= b < n the effective distance bandwidth lies between the floor(b)-th and the (floor(b)+1)-th smallest distance, equals the floor(b)-th when b is an integer, so for an integer b at most b-1 points are strictly inside and at least b points are within it; for b >= n it is (b/n) times the largest distance.", "quantifier": "all distance vectors, all real adaptive bandwidths >= 1", "why_tests_cant": "Order statistics over vectors of every length and ties of every shape.", "anchors": ["src/gwmodelpp/spatialweight/BandwidthWeight.cpp: BandwidthWeight::weight"]}
{"id": "C06", "title": "Weights are monotone in the bandwidth", "statement": "Enlarging the bandwidth (fixed or adaptive) never lowers the weight of any point.", "quantifier": "all kernels, all pairs b <= b' of bandwidths, all distance vectors", "why_tests_cant": "Relational property over pairs of inputs.", "anchors": ["src/gwmodelpp/spatialweight/BandwidthWeight.cpp: BandwidthWeight::weight", "include/gwmodelpp/spatialweight/BandwidthWeight.h: *KernelFunction"]}
{"id": "C07", "title": "Weighting commutes with reordering the observations", "statement": "Permuting the distance vector permutes the weight vector in the same way and changes nothing else, in fixed and adaptive mode.", "quantifier": "all permutations of all distance vectors", "why_tests_cant": "n! permutations for each n.", "anchors": ["src/gwmodelpp/spatialweight/BandwidthWeight.cpp: BandwidthWeight::weight"]}
{"id": "C08", "title": "Weights do not depend on the unit of length", "statement": "Multiplying all distances by c>0 leaves adaptive weights unchanged, and leaves fixed weights unchanged when the bandwidth is multiplied by c as well.", "quantifier": "all c>0, kernels, bandwidths, distance vectors", "why_tests_cant": "Relational property over reals.", "anchors": ["src/gwmodelpp/spatialweight/BandwidthWeight.cpp: BandwidthWeight::weight", "include/gwmodelpp/spatialweight/BandwidthWeight.h: *KernelFunction"]}
{"id": "C09", "title": "Every bandwidth accepted by isValid can be used for weighting", "statement": "If the algorithm's isValid accepts the bandwidth (bandwidth > 0) then computing the weights does not fail.", "quantifier": "all positive bandwidths in adaptive or fixed mode and all non-empty distance vectors", "why_tests_cant": "A failure only occurs on part of an infinite parameter space.", "anchors": ["src/gwmodelpp/spatialweight/BandwidthWeight.cpp: BandwidthWeight::weight", "src/gwmodelpp/GWRBasic.cpp: GWRBasic::isValid"]}
{"id": "C10", "title": "Weights are finite numbers for every data set", "statement": "For every valid configuration and every set of locations, including data sets with coincident locations, no weight is NaN.", "quantifier": "all distance vectors with any number of zero distances, all kernels, adaptive bandwidths >= 1", "why_tests_cant": "Depends on tie structure of arbitrary data sets.", "anchors": ["src/gwmodelpp/spatialweight/BandwidthWeight.cpp: BandwidthWeight::weight", "include/gwmodelpp/spatialweight/BandwidthWeight.h: *KernelFunction"]}
{"id": "C11", "title": "CPU and GPU weights agree", "statement": "The CUDA weight kernels return the same weights as the CPU implementation for the same distances and bandwidth.", "quantifier": "all kernels, bandwidths, distance vectors", "why_tests_cant": "Relational property of two implementations over all inputs; no GPU available in tests.", "anchors": ["src/gwmodelpp/spatialweight/BandwidthWeight.cpp: BandwidthWeight::weight", "src/gwmodelpp/spatialweight/cuda/BandwidthWeightKernel.cu: gw_weight_cuda"]}
{"id": "C12", "title": "Planar distances form a metric", "statement": "Euclidean CRSDistance values are non-negative, zero exactly for equal coordinates, symmetric in focus and data point, satisfy the triangle inequality and are invariant under translation and rotation of all coordinates.", "quantifier": "all coordinate matrices with two columns, all triples of points", "why_tests_cant": "Triangle inequality over all real triples.", "anchors": ["include/gwmodelpp/spatialweight/CRSDistance.h: EuclideanDistance", "src/gwmodelpp/spatialweight/CRSDistance.cpp: CRSDistance::distance"]}
{"id": "C13", "title": "Great-circle distance is symmetric and identifies only coincident points", "statement": "SpGcdist is symmetric in its two points, is zero for identical points, and does not return zero for points that are clearly apart.", "quantifier": "all longitudes and latitudes in degrees", "why_tests_cant": "All real pairs of coordinates, including both longitude conventions.", "anchors": ["src/gwmodelpp/spatialweight/CRSDistance.cpp: CRSDistance::SpGcdist"]}
{"id": "C14", "title": "maxDistance and minDistance are the attained extremes", "statement": "For a non-empty parameter set, maxDistance bounds every entry of every distance vector and is attained; the same for minDistance from below.", "quantifier": "all focus and data matrices", "why_tests_cant": "Fold over matrices of every size.", "anchors": ["src/gwmodelpp/spatialweight/CRSDistance.cpp: CRSDistance::maxDistance, minDistance", "src/gwmodelpp/spatialweight/OneDimDistance.cpp: maxDistance, minDistance"]}
{"id": "C15", "title": "A rejected parameter never leaves stale coordinates behind", "statement": "After makeParameter throws, distance() cannot silently answer from previously installed coordinates; out-of-range focus indices are always reported, never answered.", "quantifier": "all sequences of makeParameter and distance calls with all argument shapes and types", "why_tests_cant": "History property over all call sequences.", "anchors": ["src/gwmodelpp/spatialweight/CRSDistance.cpp: CRSDistance::makeParameter, distance", "src/gwmodelpp/spatialweight/CRSSTDistance.cpp: makeParameter", "src/gwmodelpp/spatialweight/OneDimDistance.cpp: makeParameter"]}
{"id": "C16", "title": "Cloning a distance preserves its behaviour", "statement": "A clone of a distance object answers every distance query exactly like the original.", "quantifier": "all distance kinds, states and queries", "why_tests_cant": "Observational equivalence over all queries.", "anchors": ["src/gwmodelpp/spatialweight/CRSDistance.cpp: copy constructor", "src/gwmodelpp/spatialweight/OneDimDistance.cpp: copy constructor", "src/gwmodelpp/spatialweight/CRSSTDistance.cpp: copy constructor", "src/gwmodelpp/spatialweight/DMatDistance.cpp: copy constructor", "src/gwmodelpp/spatialweight/MinkwoskiDistance.cpp: copy constructor"]}
{"id": "C17", "title": "Minkowski distance is the p-norm distance", "statement": "MinkwoskiDistance with exponent p returns the p-norm of the coordinate differences (p=1 the Manhattan distance, p=2 the Euclidean one) and its maxDistance/minDistance bound the values distance() returns.", "quantifier": "all p >= 1, rotation angles, coordinate matrices", "why_tests_cant": "Norm identity over all reals.", "anchors": ["src/gwmodelpp/spatialweight/MinkwoskiDistance.cpp: distance", "include/gwmodelpp/spatialweight/MinkwoskiDistance.h: ChessDistance, ManhattonDist, MinkwoskiDist"]}
{"id": "C18", "title": "Space-time distance is causal and interpolates between space and time", "statement": "For lambda in [0,1): observations later than the focus get the sentinel distance 1e13, all others lambda*s+(1-lambda)*t+2*sqrt(lambda(1-lambda)st) >= 0; lambda=1 gives the spatial distance and lambda=0 the temporal one; the value is monotone in s and in t; only lambda in [0,1] can be set through setLambda.", "quantifier": "all lambda, spatial and temporal distances, and sequences of setLambda calls", "why_tests_cant": "Real-valued quantification.", "anchors": ["src/gwmodelpp/spatialweight/CRSSTDistance.cpp: OrthogonalSTDistance, ObliqueSTDistance", "include/gwmodelpp/spatialweight/CRSSTDistance.h: setLambda"]}
{"id": "C19", "title": "SpatialWeight never leaks, double-frees or dangles", "statement": "For every sequence of constructions, copies, moves, assignments, setWeight/setDistance calls and destructions of SpatialWeight objects, no owned object is used after being freed or freed twice, and when all SpatialWeight objects are gone all owned objects have been freed.", "quantifier": "all finite operation histories over any number of SpatialWeight objects", "why_tests_cant": "Unbounded histories and aliasing patterns.", "anchors": ["include/gwmodelpp/spatialweight/SpatialWeight.h: constructors, setWeight, setDistance", "src/gwmodelpp/spatialweight/SpatialWeight.cpp: operator=, destructor"]}
{"id": "C20", "title": "Copies of a SpatialWeight are independent", "statement": "After copying a SpatialWeight, changing the bandwidth or distance of one object never changes what the other returns; the copy initially behaves like the source.", "quantifier": "all operation histories", "why_tests_cant": "Aliasing over unbounded histories.", "anchors": ["include/gwmodelpp/spatialweight/SpatialWeight.h: copy constructor, weight()", "src/gwmodelpp/spatialweight/SpatialWeight.cpp: operator="]}
{"id": "C21", "title": "The selected bandwidth is the best one evaluated", "statement": "When bandwidth selection finishes normally, the criterion at the returned bandwidth is less than or equal to the criterion at every bandwidth that was evaluated during the search.", "quantifier": "all criterion functions, bounds and modes", "why_tests_cant": "The criterion is an arbitrary function.", "anchors": ["src/gwmodelpp/BandwidthSelector.cpp: BandwidthSelector::optimize"]}
{"id": "C22", "title": "Bandwidth selection always terminates within 102 evaluations", "statement": "optimize evaluates the criterion at most 102 times whatever the criterion does, including on cancellation.", "quantifier": "all criterion functions, bounds, cancellation points", "why_tests_cant": "Termination over arbitrary functions.", "anchors": ["src/gwmodelpp/BandwidthSelector.cpp: BandwidthSelector::optimize"]}
{"id": "C23", "title": "Fixed-bandwidth search stays inside its bounds", "statement": "For a fixed bandwidth every evaluated and the returned bandwidth lies strictly between the lower and the upper bound, and the bracket shrinks by the golden ratio in every step.", "quantifier": "all criteria and all bounds lower < upper", "why_tests_cant": "Invariant over arbitrary branch sequences.", "anchors": ["src/gwmodelpp/BandwidthSelector.cpp: BandwidthSelector::optimize"]}
{"id": "C24", "title": "Adaptive search evaluates only integers and stays inside its bounds", "statement": "For an adaptive bandwidth with integer bounds every evaluated bandwidth is an integer between the bounds.", "quantifier": "all criteria and integer bounds", "why_tests_cant": "Rounding interacts with every branch sequence.", "anchors": ["src/gwmodelpp/BandwidthSelector.cpp: BandwidthSelector::optimize"]}
{"id": "C25", "title": "For a unimodal criterion the bracket always contains the minimiser", "statement": "If the criterion is unimodal on the search interval, the bracket maintained by the fixed-bandwidth search always contains the minimiser, so the returned bandwidth is within one bracket width of it.", "quantifier": "all strictly unimodal criteria", "why_tests_cant": "Quantifies over functions.", "anchors": ["src/gwmodelpp/BandwidthSelector.cpp: BandwidthSelector::optimize"]}
{"id": "C26", "title": "Bandwidth selection changes only the bandwidth value", "statement": "The returned bandwidth weight has the kernel and the adaptive flag of the initial one; when the computation is cancelled the original bandwidth object is returned unchanged; if both initial criteria are invalid an error is raised.", "quantifier": "all initial weights, criteria and cancellation points", "why_tests_cant": "Every possible cancellation point.", "anchors": ["src/gwmodelpp/BandwidthSelector.cpp: BandwidthSelector::optimize"]}
{"id": "C27", "title": "The reported criterion list is exactly the set of valid evaluations in ascending order", "statement": "bandwidthCriterion() lists each evaluated bandwidth with a valid criterion once, sorted by bandwidth, with its criterion value, and nothing else.", "quantifier": "all runs", "why_tests_cant": "Depends on the run's history.", "anchors": ["src/gwmodelpp/BandwidthSelector.cpp: BandwidthSelector::optimize", "src/gwmodelpp/BandwidthSelector.cpp: bandwidthCriterion"]}
{"id": "C28", "title": "Bandwidth selection releases its temporaries", "statement": "Every BandwidthWeight allocated inside optimize is either returned or freed on every path.", "quantifier": "all criteria and cancellation points", "why_tests_cant": "Path property.", "anchors": ["src/gwmodelpp/BandwidthSelector.cpp: BandwidthSelector::optimize"]}
{"id": "C29", "title": "Variable selection returns a duplicate-free subset of the candidates", "statement": "The selected variables are pairwise distinct and all belong to the candidate list.", "quantifier": "all candidate lists, criteria and thresholds", "why_tests_cant": "Arbitrary criterion functions.", "anchors": ["src/gwmodelpp/VariableForwardSelector.cpp: optimize, select"]}
{"id": "C30", "title": "Variable selection evaluates k(k+1)/2 models, in nested groups", "statement": "Without cancellation exactly k(k+1)/2 models are evaluated; the i-th group consists of all one-variable extensions of the best model of the previous group.", "quantifier": "all k and criteria", "why_tests_cant": "Induction on k.", "anchors": ["src/gwmodelpp/VariableForwardSelector.cpp: optimize"]}
{"id": "C31", "title": "The chosen model chain is greedy", "statement": "In each step the added variable minimises the criterion among all remaining candidates.", "quantifier": "all criteria", "why_tests_cant": "Arbitrary functions.", "anchors": ["src/gwmodelpp/VariableForwardSelector.cpp: optimize"]}
{"id": "C32", "title": "Reordering the model list loses nothing", "statement": "The reported model list is a permutation of the evaluated models, ordered by decreasing criterion inside each group.", "quantifier": "all criteria", "why_tests_cant": "Sorting over all inputs.", "anchors": ["src/gwmodelpp/VariableForwardSelector.cpp: sort, indepVarsCriterion"]}
{"id": "C33", "title": "Model choice by threshold is memory safe", "statement": "Choosing the final model never reads outside the model list and always terminates.", "quantifier": "all model lists and thresholds", "why_tests_cant": "Failing inputs depend on the criterion values.", "anchors": ["src/gwmodelpp/VariableForwardSelector.cpp: select"]}
{"id": "C34", "title": "Cancelled variable selection keeps all variables", "statement": "If the computation is cancelled during variable selection the original candidate list is returned.", "quantifier": "all cancellation points", "why_tests_cant": "Every cancellation point.", "anchors": ["src/gwmodelpp/VariableForwardSelector.cpp: optimize"]}
{"id": "C35", "title": "MPI work ranges partition the observations", "statement": "The ranges assigned to the MPI workers are in bounds, pairwise disjoint, and together contain every observation exactly once.", "quantifier": "all numbers of observations and workers", "why_tests_cant": "All pairs (n, workers).", "anchors": ["src/gwmodelpp/GWRBasic.cpp: GWRBasic::fit (workRange)", "src/gwmodelpp/GWRMultiscale.cpp: fit (workRange)"]}
{"id": "C36", "title": "Gathering MPI results does not depend on message order", "statement": "The master's assembled coefficient matrix equals the serial one for every arrival order of the workers' messages.", "quantifier": "all n, worker counts and message orders", "why_tests_cant": "Factorially many interleavings.", "anchors": ["src/gwmodelpp/GWRBasic.cpp: GWRBasic::fitMpi"]}
{"id": "C37", "title": "MPI-combined multiscale coefficients equal the serial ones", "statement": "In the distributed multiscale model the coefficient vector combined across workers equals the vector computed by one process.", "quantifier": "all coefficient values and partitions", "why_tests_cant": "Sign patterns of arbitrary coefficients.", "anchors": ["src/gwmodelpp/GWRMultiscale.cpp: fitVarMpi, bandwidthSizeCriterionVarAICMpi, bandwidthSizeCriterionVarCVMpi"]}
{"id": "C38", "title": "Distributed matrix product equals the ordinary product", "statement": "mat_mul_mpi leaves on each process the rows of A*B that the process owns, for every block-row distribution.", "quantifier": "all process counts, block sizes and matrices", "why_tests_cant": "All partitions and sizes.", "anchors": ["src/gwmodelpp/utils/armampi.cpp: mat_mul_mpi"]}
{"id": "C39", "title": "OpenMP results do not depend on the schedule", "statement": "For every assignment of iterations to threads and every interleaving, the OpenMP fit returns the coefficients and hat-matrix statistics of the serial fit when no local regression fails.", "quantifier": "all schedules, thread counts and data", "why_tests_cant": "Exponentially many schedules.", "anchors": ["src/gwmodelpp/GWRBasic.cpp: fitCoreOmp, fitCoreCVOmp, fitCoreSHatOmp", "src/gwmodelpp/GTWR.cpp: fitOmp", "src/gwmodelpp/GWRRobust.cpp: fitOmp", "src/gwmodelpp/GWDR.cpp: fitOmp"]}
{"id": "C40", "title": "Failures in OpenMP loops are reported like in serial mode", "statement": "If some local regression fails, the OpenMP variant reports it (exception or invalid criterion) on every schedule exactly when the serial variant does.", "quantifier": "all schedules, failing index sets", "why_tests_cant": "Schedule dependent.", "anchors": ["src/gwmodelpp/GWRBasic.cpp: fitCoreOmp, fitCoreCVOmp, fitCoreSHatOmp", "src/gwmodelpp/GWDR.cpp: fitOmp", "src/gwmodelpp/GTWR.cpp: bandwidthSizeCriterionCVOmp"]}
{"id": "C41", "title": "CUDA groups process every observation exactly once", "statement": "The batched CUDA loops visit each observation once for every group size, and group-level sums include only observations of that group.", "quantifier": "all n and group sizes", "why_tests_cant": "All pairs (n, group size).", "anchors": ["src/gwmodelpp/GWRBasic.cpp: fitCoreCuda, fitCoreSHatCuda, fitCoreCVCuda, predictCuda"]}
{"id": "C42", "title": "Parallel mode selection is consistent", "statement": "setParallelType accepts a mode only if it is in the ability mask, leaves everything unchanged otherwise, and afterwards all calculator functions belong to the accepted mode and are non-null.", "quantifier": "all algorithms, all sequences of setter calls", "why_tests_cant": "All setter histories.", "anchors": ["src/gwmodelpp/GWRBasic.cpp: setParallelType", "src/gwmodelpp/GWDR.cpp: setParallelType", "src/gwmodelpp/GTWR.cpp: setParallelType", "src/gwmodelpp/GWRGeneralized.cpp: setParallelType, setFamily"]}
{"id": "C43", "title": "Local coefficients are the weighted least-squares solution", "statement": "At every location the returned coefficients minimise the weighted sum of squared residuals over all coefficient vectors, and are the only minimiser, whenever the local cross-product matrix is invertible and the weights are non-negative.", "quantifier": "all data matrices, responses, weights", "why_tests_cant": "Optimality over all competitors in R^p.", "anchors": ["src/gwmodelpp/GWRBasic.cpp: fitCoreSerial"]}
{"id": "C44", "title": "Fitted values are linear in the response through the hat matrix", "statement": "The stored hat matrix S satisfies fitted = S*y, shat = (trace S, trace S'S), and qdiag is the column sum of squares of I-S; none of them depends on y.", "quantifier": "all data", "why_tests_cant": "Matrix identity for all sizes.", "anchors": ["src/gwmodelpp/GWRBasic.cpp: fitCoreSerial, fitBase", "src/gwmodelpp/GTWR.cpp: fitSerial"]}
{"id": "C45", "title": "Coefficients respond affinely to the response", "statement": "Fitting a*y1+b*y2 gives a*beta(y1)+b*beta(y2); when y = X*g exactly, every location returns g.", "quantifier": "all responses, scalars and exact linear data", "why_tests_cant": "Relational over all data.", "anchors": ["src/gwmodelpp/GWRBasic.cpp: fitCoreSerial"]}
{"id": "C46", "title": "Coefficients are equivariant under rescaling or recombining the regressors", "statement": "Replacing X by X*A with A invertible replaces each local coefficient vector by A^-1 beta and leaves fitted values, hat matrix and diagnostics unchanged.", "quantifier": "all invertible A", "why_tests_cant": "Relational over matrices.", "anchors": ["src/gwmodelpp/GWRBasic.cpp: fitCoreSerial"]}
{"id": "C47", "title": "Leave-one-out prediction ignores the left-out observation", "statement": "The cross-validation residual at i uses coefficients that do not depend on the response or the regressors of observation i.", "quantifier": "all data, all i", "why_tests_cant": "Non-interference.", "anchors": ["src/gwmodelpp/GWRBasic.cpp: fitCoreCVSerial, bandwidthSizeCriterionCV"]}
{"id": "C48", "title": "Local coefficients depend only on observations with non-zero weight", "statement": "Changing the response or regressors of observations with weight zero at a location does not change that location's coefficients.", "quantifier": "all data and weight patterns", "why_tests_cant": "Non-interference.", "anchors": ["src/gwmodelpp/GWRBasic.cpp: fitCoreSerial"]}
{"id": "C49", "title": "Weights matter only up to scale, and uniform weights give the global model", "statement": "Scaling the weights at a location by a positive constant leaves its coefficients unchanged; with equal weights everywhere all locations return the ordinary least squares coefficients.", "quantifier": "all data, scalars", "why_tests_cant": "Relational.", "anchors": ["src/gwmodelpp/GWRBasic.cpp: fitCoreSerial"]}
{"id": "C50", "title": "Diagnostics satisfy their identities and bounds", "statement": "RSS >= 0, ENP+EDF = n, R2 <= 1, AICc is the documented function of RSS and trace; R2 = 1 iff the fit is exact.", "quantifier": "all data with non-constant response", "why_tests_cant": "Algebra over reals.", "anchors": ["src/gwmodelpp/GWRBasic.cpp: CalcDiagnostic", "src/gwmodelpp/GWRBase.cpp: AICc"]}
{"id": "C51", "title": "Predicting at the data locations reproduces the fitted coefficients", "statement": "predict(coords) returns the same coefficients as fit() with the same bandwidth.", "quantifier": "all data", "why_tests_cant": "Relational.", "anchors": ["src/gwmodelpp/GWRBasic.cpp: predict, predictSerial, fitCoreSerial"]}
{"id": "C52", "title": "Cancellation is sticky and yields no half-computed result", "statement": "Once the telegram requests a stop, status stays Terminated; fit returns a zero matrix rather than partial coefficients.", "quantifier": "all cancellation points", "why_tests_cant": "Every cancellation point.", "anchors": ["src/gwmodelpp/GWRBasic.cpp: fit, fitBase", "include/gwmodelpp/Logger.h: GWM_LOG_STOP_RETURN"]}
{"id": "C53", "title": "Backfitting hat matrices stay consistent", "statement": "At every backfitting step the per-variable hat matrices sum to the total hat matrix, each reproduces its variable's contribution to the fit, and the total reproduces the fitted values.", "quantifier": "all data, iteration counts and variable orders", "why_tests_cant": "Invariant over arbitrarily many steps.", "anchors": ["src/gwmodelpp/GWRMultiscale.cpp: backfitting, fitVarBase"]}
{"id": "C54", "title": "Backfitting stops within the iteration limit", "statement": "Backfitting performs at most the configured number of sweeps and each sweep refits every variable once in order.", "quantifier": "all data and criteria", "why_tests_cant": "Termination.", "anchors": ["src/gwmodelpp/GWRMultiscale.cpp: backfitting"]}
{"id": "C55", "title": "Specified bandwidths are never changed by backfitting", "statement": "A variable whose bandwidth is given as Specified keeps exactly that bandwidth; once a variable's bandwidth has been declared converged it is not selected again.", "quantifier": "all criteria", "why_tests_cant": "History property.", "anchors": ["src/gwmodelpp/GWRMultiscale.cpp: backfitting"]}
{"id": "C56", "title": "Predictor centring makes the requested columns mean-zero and touches nothing else", "statement": "After centring each requested predictor has mean zero, others and the intercept are unchanged, and centring twice equals centring once.", "quantifier": "all matrices", "why_tests_cant": "All sizes and values.", "anchors": ["src/gwmodelpp/GWRMultiscale.cpp: fit (mPreditorCentered)"]}
{"id": "C57", "title": "Converged backfitting solves the additive smoothing equations", "statement": "If a sweep changes nothing, each component is the local regression of the partial residual on its variable, so the fitted values satisfy the additive model's normal equations.", "quantifier": "all data", "why_tests_cant": "Fixpoint characterisation.", "anchors": ["src/gwmodelpp/GWRMultiscale.cpp: backfitting, fitVar"]}
{"id": "C58", "title": "Local means and variances are proper weighted moments", "statement": "The local mean lies between the smallest and largest observed value, the local variance is non-negative, and is zero only if all positively weighted values coincide; both respond correctly to affine transformations.", "quantifier": "all data and non-negative weights with positive sum", "why_tests_cant": "Convexity over all vectors.", "anchors": ["src/gwmodelpp/GWSS.cpp: GWAverageSerial"]}
{"id": "C59", "title": "Local correlations lie in [-1,1]", "statement": "Local Pearson and Spearman correlations are between -1 and 1, symmetric in the two variables, and invariant under positive affine transformations.", "quantifier": "all data, weights", "why_tests_cant": "Cauchy-Schwarz.", "anchors": ["src/gwmodelpp/GWSS.cpp: GWCorrelationSerial", "include/gwmodelpp/GWSS.h: covwt, corwt"]}
{"id": "C60", "title": "Local quantiles are observed values in order", "statement": "With quantile statistics enabled, the local quartiles are values of the variable and Q1 <= median <= Q3; computing them never reads outside the data.", "quantifier": "all data, weights", "why_tests_cant": "Index arithmetic depends on arbitrary weights.", "anchors": ["src/gwmodelpp/GWSS.cpp: findq"]}
{"id": "C61", "title": "Ranks are a permutation of 1..n consistent with the order", "statement": "The ranks used for Spearman correlation are a permutation of 1..n and order-preserving.", "quantifier": "all vectors", "why_tests_cant": "All permutations.", "anchors": ["include/gwmodelpp/GWSS.h: rank"]}
{"id": "C62", "title": "Correlation columns enumerate each pair once", "statement": "The columns of the local correlation matrix enumerate each unordered pair of variables exactly once, in range, for both modes.", "quantifier": "all numbers of variables", "why_tests_cant": "All n.", "anchors": ["src/gwmodelpp/GWSS.cpp: run, GWCorrelationSerial"]}
{"id": "C63", "title": "Link functions and their inverses are mutually inverse", "statement": "For Poisson and binomial models linkinv(linkfun(mu)) = mu for valid means; inverse links always return valid means; muEta is the derivative of the inverse link.", "quantifier": "all real predictors", "why_tests_cant": "Calculus identity on the reals.", "anchors": ["src/gwmodelpp/PoissonModel.cpp: linkinv, linkfun, muEta", "src/gwmodelpp/BinomialModel.cpp: linkinv, linkfun, muEta"]}
{"id": "C64", "title": "Deviance residuals are non-negative and vanish only at a perfect fit", "statement": "Each deviance contribution is >= 0 for valid means, and zero iff the mean equals the observation.", "quantifier": "all y and mu", "why_tests_cant": "Analytic inequality.", "anchors": ["src/gwmodelpp/PoissonModel.cpp: devResids", "src/gwmodelpp/BinomialModel.cpp: devResids", "src/gwmodelpp/GWRGeneralized.cpp: fitPoissonSerial"]}
{"id": "C65", "title": "Local IRLS stops within its iteration limit and returns valid means", "statement": "The local scoring loops run at most mMaxiter times and return means in the valid range for every outcome of the local regressions.", "quantifier": "all data", "why_tests_cant": "Termination over arbitrary data.", "anchors": ["src/gwmodelpp/GWRGeneralized.cpp: PoissonWtSerial, BinomialWtSerial"]}
{"id": "C66", "title": "Generalized GWR criteria agree between serial and OpenMP", "statement": "The AICc criterion computed with OpenMP equals the serial one on every schedule.", "quantifier": "all schedules", "why_tests_cant": "Schedule dependent.", "anchors": ["src/gwmodelpp/GWRGeneralized.cpp: bandwidthSizeGGWRCriterionAICOmp, bandwidthSizeGGWRCriterionAICSerial"]}
{"id": "C67", "title": "Generalized GWR prediction returns the local estimates", "statement": "predict returns, for each location, the local coefficient estimates.", "quantifier": "all data", "why_tests_cant": "Functional correctness for all data.", "anchors": ["src/gwmodelpp/GWRGeneralized.cpp: predict, fitPoissonSerial, fitBinomialSerial"]}
{"id": "C68", "title": "Robust down-weights are proper", "statement": "The residual filter returns weights in [0,1], equal to 1 for standardised residuals up to 2, 0 from 3 on, continuous and non-increasing in the absolute residual.", "quantifier": "all residuals and mse>0", "why_tests_cant": "Real-valued quantification.", "anchors": ["src/gwmodelpp/GWRRobust.cpp: filtWeight, robustGWRCaliFirst"]}
{"id": "C69", "title": "Robust fitting runs a bounded number of refits and survives a perfect fit", "statement": "The iterative variant performs at most 21 fits and the filtered variant exactly 2; data that are fitted exactly are handled without failure.", "quantifier": "all data", "why_tests_cant": "Termination plus boundary case of zero residuals.", "anchors": ["src/gwmodelpp/GWRRobust.cpp: robustGWRCaliFirst, robustGWRCaliSecond"]}
{"id": "C70", "title": "Class levels, groups and counts partition the observations", "statement": "levels lists each class once in order of first appearance, splitX distributes every row to exactly one class preserving order, ytable counts them.", "quantifier": "all label vectors", "why_tests_cant": "All lists.", "anchors": ["src/gwmodelpp/GWDA.cpp: levels, splitX, ytable, findSameString"]}
{"id": "C71", "title": "Class membership probabilities form a distribution", "statement": "For each observation the reported probabilities are in [0,1], sum to one, and the predicted class has the largest probability.", "quantifier": "all score matrices", "why_tests_cant": "Real-valued quantification.", "anchors": ["src/gwmodelpp/GWDA.cpp: run"]}
{"id": "C72", "title": "Normalised entropy lies in [0,1]", "statement": "The reported classification entropy is between 0 (certain) and 1 (uniform).", "quantifier": "all probability vectors", "why_tests_cant": "Gibbs inequality.", "anchors": ["src/gwmodelpp/GWDA.cpp: run, shannonEntropy"]}
{"id": "C73", "title": "Serial and OpenMP discriminant analysis agree", "statement": "Both modes classify identically, in particular both leave out the classified observation itself when no prediction set is given.", "quantifier": "all data", "why_tests_cant": "Relational.", "anchors": ["src/gwmodelpp/GWDA.cpp: discriminantAnalysisSerial, discriminantAnalysisOmp"]}
{"id": "C74", "title": "Automatic lambda selection stays in [0,1] and terminates", "statement": "LambdaAutoSelection evaluates at most 104 lambdas, all in [0,1], and returns a value in [0,1].", "quantifier": "all criteria", "why_tests_cant": "Arbitrary functions.", "anchors": ["src/gwmodelpp/GTWR.cpp: LambdaAutoSelection"]}
{"id": "C75", "title": "The selected lambda is at least as good as the evaluated ones", "statement": "The returned lambda has an R2 at least as large as every evaluated lambda.", "quantifier": "all criteria", "why_tests_cant": "Arbitrary functions.", "anchors": ["src/gwmodelpp/GTWR.cpp: LambdaAutoSelection"]}
{"id": "C76", "title": "Space-time prediction uses the requested locations", "statement": "predict(locations) returns the coefficients at the requested locations.", "quantifier": "all locations", "why_tests_cant": "Relational.", "anchors": ["src/gwmodelpp/GTWR.cpp: predict, createPredictionDistanceParameter"]}
{"id": "C77", "title": "Density-regression weights are products of per-dimension weights", "statement": "GWDR weights lie in [0,1], do not depend on the order of the dimensions, and are non-increasing in each coordinate distance.", "quantifier": "all dimensions, weights", "why_tests_cant": "All dimension counts.", "anchors": ["src/gwmodelpp/GWDR.cpp: fitSerial"]}
{"id": "C78", "title": "GWDR bandwidth optimisation starts at the user's bandwidth", "statement": "The first evaluated bandwidth vector of the optimiser equals the user's initial bandwidths, and the evaluated bandwidths are non-negative.", "quantifier": "all bandwidth vectors", "why_tests_cant": "Relational.", "anchors": ["src/gwmodelpp/GWDR.cpp: GWDRBandwidthOptimizer::optimize, criterion_function"]}
{"id": "C79", "title": "Ridge adjustment brings the condition number to the threshold", "statement": "When the local condition number exceeds the threshold c>1, the adjusted ridge parameter is positive and (s_max+lambda)/(s_min+lambda) = c; otherwise the user's lambda is used.", "quantifier": "all singular values and thresholds", "why_tests_cant": "Real algebra.", "anchors": ["src/gwmodelpp/GWRLocalCollinearity.cpp: fitSerial"]}
{"id": "C80", "title": "Ridge regression with lambda zero is weighted least squares, and refitting is repeatable", "statement": "ridgelm with lambda=0 returns the weighted least squares coefficients; fitting twice gives the same diagnostics.", "quantifier": "all data", "why_tests_cant": "Matrix identity; history.", "anchors": ["src/gwmodelpp/GWRLocalCollinearity.cpp: ridgelm, fitSerial, fit"]}
{"id": "C81", "title": "Scalable GWR polynomial weights are convex and indexed consistently", "statement": "The polynomial kernel coefficients are non-negative and sum to one; the packed index of (k1, p, k2) is injective and in range; writer and readers use the same index.", "quantifier": "all k, polynomial degrees and b>0", "why_tests_cant": "All index triples.", "anchors": ["src/gwmodelpp/GWRScalable.cpp: Loocv, AICvalue, prepare, fitSerial"]}
{"id": "C82", "title": "Scalable GWR cross-validation leaves the observation out", "statement": "In CV mode the neighbour list of an observation does not contain the observation itself, and neighbour search never reads out of range for bandwidths accepted by isValid.", "quantifier": "all coordinates and bandwidths", "why_tests_cant": "All configurations.", "anchors": ["src/gwmodelpp/GWRScalable.cpp: findDataPointNeighbours"]}
{"id": "C83", "title": "Local percentages of variance are proper", "statement": "The local PV values are in [0,100] and sum to at most 100; sdev at a location depends only on that location's weights.", "quantifier": "all singular values and weights", "why_tests_cant": "All data.", "anchors": ["src/gwmodelpp/GWPCA.cpp: solveSerial"]}
{"id": "C84", "title": "isValid accepts exactly the well-formed GWR inputs", "statement": "GWRBasic::isValid is true exactly when coordinates are non-empty, X has at least one column, X, y and coordinates have the same number of rows and the bandwidth is positive.", "quantifier": "all inputs", "why_tests_cant": "Decision rule over all shapes.", "anchors": ["src/gwmodelpp/GWRBasic.cpp: isValid", "src/gwmodelpp/GWRBase.cpp: isValid"]}
{"id": "C85", "title": "GPU and CPU distance vectors agree", "statement": "CRSDistance::distance on the GPU fills one distance per data point, equal to the CPU distance vector.", "quantifier": "all focus and data matrices and focus indices", "why_tests_cant": "Shape combinations of every size.", "anchors": ["src/gwmodelpp/spatialweight/CRSDistance.cpp: CRSDistance::distance (ENABLE_CUDA)", "src/gwmodelpp/spatialweight/cuda/CRSDistanceKernel.cu"]}
{"id": "C86", "title": "AICc during bandwidth search is computed from the final fit", "statement": "For the same weights the SHat core used by the AICc bandwidth criterion produces exactly the coefficients and traces of the fitting core, including where it stops or fails.", "quantifier": "all data, weights, stop points, storage options", "why_tests_cant": "Equality of two separately written loops on all inputs.", "anchors": ["src/gwmodelpp/GWRBasic.cpp: fitCoreSHatSerial", "src/gwmodelpp/GWRBasic.cpp: fitCoreSerial"]}
{"id": "C87", "title": "The stored coefficient operator is consistent", "statement": "When C is stored, C_i*y are the coefficients at location i, C_i*X is the identity, and the accumulated squares are the diagonal of C_i*C_i'.", "quantifier": "all data, work ranges", "why_tests_cant": "All data.", "anchors": ["src/gwmodelpp/GWRBasic.cpp: fitCoreSerial"]}
{"id": "C88", "title": "Reported standard errors have the documented scale", "statement": "For positive EDF and every accumulated sum of squares q the reported standard error se is a non-negative number with se^2 = RSS/(n-ENP)*q.", "quantifier": "all data", "why_tests_cant": "All data.", "anchors": ["src/gwmodelpp/GWRBasic.cpp: fitBase"]}
{"id": "C89", "title": "Backfitting searches bandwidths within the range of distances", "statement": "For every variable whose bandwidth is not specified, a fixed bandwidth evaluated or returned by the search of a backfitting iteration lies between the smallest and largest distance (no user bounds given).", "quantifier": "all criteria, distances, initialisation types", "why_tests_cant": "Needs every criterion and initialisation.", "anchors": ["src/gwmodelpp/GWRMultiscale.cpp: fit, backfitting", "src/gwmodelpp/BandwidthSelector.cpp: optimize"]}
{"id": "C90", "title": "Final regressions of generalised GWR reproduce the scored means", "statement": "After the local scoring loop, the final regressions (same weights and adjusted response as kept by the loop) reproduce the means the loop returned, in both families.", "quantifier": "all data, local regressions, likelihoods, tolerances and limits", "why_tests_cant": "Needs every way of leaving the loop.", "anchors": ["src/gwmodelpp/GWRGeneralized.cpp: PoissonWtSerial, BinomialWtSerial, fitPoissonSerial, fitBinomialSerial"]}
{"id": "C91", "title": "The global generalised linear model ends with defined deviances", "statement": "GeneralizedLinearModel::fit makes at most mMaxit regressions, never takes its infinite-deviance path, and null deviance and deviance are defined, finite and non-negative.", "quantifier": "all valid responses and all regressions returning numbers", "why_tests_cant": "Arbitrary sequences of regression results.", "anchors": ["src/gwmodelpp/GeneralizedLinearModel.cpp: fit", "src/gwmodelpp/GWRGeneralized.cpp: CalGLMModel"]}
{"id": "C92", "title": "The robust filter discards few observations", "statement": "In one iteration of the iterative robust calibration at most a ninth of the observations get weight zero and at most a quarter get a weight below one.", "quantifier": "all residual vectors", "why_tests_cant": "Counting bound for every sample size.", "anchors": ["src/gwmodelpp/GWRRobust.cpp: filtWeight, robustGWRCaliSecond"]}
{"id": "C93", "title": "A discarded observation has no influence", "statement": "The coefficients of a robust fit do not depend on the response or regressors of an observation whose mask is zero.", "quantifier": "all data, masks, weights", "why_tests_cant": "Relational.", "anchors": ["src/gwmodelpp/GWRRobust.cpp: fitSerial"]}
{"id": "C94", "title": "Repeating a discriminant analysis gives the same result", "statement": "Calling run() twice on an unchanged GWDA object reports the same classification, accuracy, probabilities and entropy.", "quantifier": "all data, options, modes", "why_tests_cant": "History property.", "anchors": ["src/gwmodelpp/GWDA.cpp: run, discriminantAnalysisSerial"]}
{"id": "C95", "title": "Local group means and covariances are proper", "statement": "With non-negative weights and two positive ones the local group mean lies within the range of the group and the local covariance is the symmetric positive semidefinite unbiased weighted covariance.", "quantifier": "all data, groups, weights", "why_tests_cant": "All data and vectors.", "anchors": ["src/gwmodelpp/GWDA.cpp: wMean, wVarCov, covwtmat"]}
{"id": "C96", "title": "Linear discriminant analysis minimises the local discriminant score", "statement": "The predicted label is the first one minimising half the Mahalanobis form minus the log of the local class weight; the norm term and the scaling of the priors have no influence.", "quantifier": "all data, options, solvers", "why_tests_cant": "Argument over all classes and solvers.", "anchors": ["src/gwmodelpp/GWDA.cpp: wlda, wPrior"]}
{"id": "C97", "title": "Every combination of local and global statistics can be analysed", "statement": "For every setting of the local/global mean, covariance and prior options the analysis of data with at least two variables does not throw.", "quantifier": "all options and data", "why_tests_cant": "All options times all data.", "anchors": ["src/gwmodelpp/GWDA.cpp: wlda, wqda, run"]}
{"id": "C98", "title": "The fixed-bandwidth search range of GTWR is the range of the space-time distances", "statement": "For a fixed bandwidth the upper end of the search interval is the largest space-time distance between observations.", "quantifier": "all coordinates, times and lambda", "why_tests_cant": "All configurations.", "anchors": ["src/gwmodelpp/GTWR.cpp: fit", "src/gwmodelpp/spatialweight/CRSSTDistance.cpp: maxDistance"]}
{"id": "C99", "title": "The bandwidths used by GWDR have been evaluated", "statement": "The bandwidths with which GWDR is fitted after optimisation are among those whose criterion was evaluated.", "quantifier": "all data sizes, bandwidths and minimiser runs", "why_tests_cant": "Needs every run of the minimiser.", "anchors": ["src/gwmodelpp/GWDR.cpp: GWDRBandwidthOptimizer::optimize"]}
{"id": "C100", "title": "Using up the iterations of the GWDR optimiser is not an error", "statement": "The optimiser ends, and when it uses its allowed number of iterations without meeting the tolerance, fit continues with the best bandwidths found.", "quantifier": "all minimiser runs, limits", "why_tests_cant": "Needs every run of the minimiser.", "anchors": ["src/gwmodelpp/GWDR.cpp: fit, GWDRBandwidthOptimizer::optimize"]}
{"id": "C101", "title": "GWDR prediction returns local coefficients", "statement": "GWDR::predict returns the coefficients of the local regressions at the requested locations.", "quantifier": "all data and locations", "why_tests_cant": "Relational.", "anchors": ["include/gwmodelpp/GWDR.h: predict"]}
{"id": "C102", "title": "GWDR coefficients are weighted least squares for the product weights", "statement": "The coefficients at an observation are the only minimiser of the residual sum of squares weighted with the products of the dimension weights, and all results are those of basic GWR with these weights.", "quantifier": "all data, dimensions and weights", "why_tests_cant": "Minimality over all vectors.", "anchors": ["src/gwmodelpp/GWDR.cpp: fitSerial"]}
{"id": "C103", "title": "GWDR cross-validation leaves the observation out", "statement": "The cross-validation criterion is the sum of squared errors of predicting each observation from coefficients that minimise the weighted residuals of the others.", "quantifier": "all data, dimensions and weights", "why_tests_cant": "Minimality over all vectors.", "anchors": ["src/gwmodelpp/GWDR.cpp: bandwidthCriterionCVSerial"]}
{"id": "C104", "title": "Local ridge coefficients minimise the penalised residuals", "statement": "For lambda >= 0 the coefficients at an observation are the only minimiser of the weighted residual sum of squares plus lambda times the squared coefficients scaled by the variance of their regressor (one for the intercept).", "quantifier": "all data, weights, lambda", "why_tests_cant": "Minimality over all vectors.", "anchors": ["src/gwmodelpp/GWRLocalCollinearity.cpp: ridgelm, fitSerial"]}
{"id": "C105", "title": "The traces of local ridge regression are those of its hat matrix", "statement": "There is a matrix S independent of y with fitted values S y, and the reported tr(S) and tr(S'S) are its traces.", "quantifier": "all data, weights, lambda", "why_tests_cant": "Needs every dependent variable at once.", "anchors": ["src/gwmodelpp/GWRLocalCollinearity.cpp: fitSerial"]}
{"id": "C106", "title": "Ridge cross-validation leaves the observation out", "statement": "The finite cross-validation value is the sum of squared errors of predicting each observation from the ridge coefficients that minimise the penalised residuals of the others.", "quantifier": "all data, weights, lambda", "why_tests_cant": "Minimality over all vectors.", "anchors": ["src/gwmodelpp/GWRLocalCollinearity.cpp: bandwidthSizeCriterionCVSerial"]}
{"id": "C107", "title": "Local ridge regression gives the same serially and with OpenMP", "statement": "Fit and predict give the same coefficients and traces serially and with OpenMP, for every number of threads and schedule.", "quantifier": "all data, schedules, object histories", "why_tests_cant": "All interleavings.", "anchors": ["src/gwmodelpp/GWRLocalCollinearity.cpp: fitSerial, fitOmp, predictSerial, predictOmp"]}
{"id": "C108", "title": "Scalable GWR coefficients are weighted least squares coefficients", "statement": "With positive scale and non-negative penalty the coefficients at every location minimise, uniquely, the residual sum of squares weighted by the penalty plus the polynomial mixture of kernel powers over the neighbours.", "quantifier": "all data, neighbour lists, degrees, scales and penalties", "why_tests_cant": "All data and parameters; the packed moments hide index errors.", "anchors": ["src/gwmodelpp/GWRScalable.cpp: prepare, predictSerial, fitSerial"]}
{"id": "C109", "title": "Scalable GWR uses the kernel that was selected", "statement": "With the Gaussian option neighbours are weighted by a Gaussian kernel, with the Exponential option by an exponential kernel of the distance.", "quantifier": "all distances and reference distances", "why_tests_cant": "All distances.", "anchors": ["src/gwmodelpp/GWRScalable.cpp: fit, predict, fitSerial, predictSerial"]}
{"id": "C110", "title": "Scalable GWR reports singular local fits", "statement": "If the local normal equations of an observation cannot be solved, fit does not return ordinary-looking coefficients for it.", "quantifier": "all data", "why_tests_cant": "Needs singular local data at some observation.", "anchors": ["src/gwmodelpp/GWRScalable.cpp: fitSerial"]}
{"id": "C111", "title": "Scalable GWR reports the trace of its hat matrix", "statement": "The reported trace is that of the matrix mapping the dependent variable to the fitted values.", "quantifier": "all data", "why_tests_cant": "All data.", "anchors": ["src/gwmodelpp/GWRScalable.cpp: fitSerial, AICvalue"]}
{"id": "C112", "title": "Scalable GWR cross-validation criterion is the leave-one-out error", "statement": "The CV criterion is the sum of squared leave-one-out prediction errors of the weighted least squares fits.", "quantifier": "all data and parameters", "why_tests_cant": "All data.", "anchors": ["src/gwmodelpp/GWRScalable.cpp: Loocv"]}
{"id": "C113", "title": "Scalable GWR can be fitted twice", "statement": "A second fit of the same object with the same data gives the result of the first.", "quantifier": "all data and bandwidths", "why_tests_cant": "Object histories.", "anchors": ["src/gwmodelpp/GWRScalable.cpp: fit"]}
{"id": "C114", "title": "Scalable GWR optimisation returns a point it evaluated", "statement": "optimize ends within mMaxIter steps and returns an evaluated parameter pair with its criterion value, not worse than the start.", "quantifier": "all minimiser behaviours and criteria", "why_tests_cant": "All runs of the minimiser.", "anchors": ["src/gwmodelpp/GWRScalable.cpp: optimize"]}
{"id": "C115", "title": "Scalable GWR minimises the AICc it reports", "statement": "The AIC criterion equals the reported AICc of the same residual sum of squares and trace.", "quantifier": "all n >= 2, sums of squares, traces", "why_tests_cant": "All values.", "anchors": ["src/gwmodelpp/GWRScalable.cpp: AICvalue, CalcDiagnostic"]}
{"id": "C116", "title": "GWPCA loadings are the local principal components", "statement": "At every location the loadings are orthonormal and each one has the largest geographically weighted score variation among the unit directions orthogonal to the previous ones.", "quantifier": "all data, weights and svd oracles meeting their contract", "why_tests_cant": "Maximality over all directions.", "anchors": ["src/gwmodelpp/GWPCA.cpp: wpca, solveSerial"]}
{"id": "C117", "title": "GWPCA winner is the variable that loads most on the first component", "statement": "The winning variable has the largest loading in absolute value, independent of the sign chosen by svd.", "quantifier": "all loadings", "why_tests_cant": "All data and both signs.", "anchors": ["src/gwmodelpp/GWPCA.cpp: run"]}
{"id": "C118", "title": "GWPCA runs on the inputs isValid accepts", "statement": "With at least as many observations as variables as components, usable weights and a succeeding svd the analysis gives a result; what isValid accepts does not throw.", "quantifier": "all shapes and component numbers", "why_tests_cant": "All shapes.", "anchors": ["src/gwmodelpp/GWPCA.cpp: isValid, solveSerial"]}
{"id": "C119", "title": "isValid of every analysis rejects inputs whose shapes do not match", "statement": "An accepted input has non-empty coordinates, at least one variable, matching row numbers and a usable bandwidth.", "quantifier": "all inputs of every isValid", "why_tests_cant": "Decision rules over all shapes.", "anchors": ["src/gwmodelpp/GWSS.cpp: isValid", "src/gwmodelpp/GWPCA.cpp: isValid", "src/gwmodelpp/GWDR.cpp: isValid", "src/gwmodelpp/GWRMultiscale.cpp: isValid", "src/gwmodelpp/GWRScalable.cpp: isValid"]}
{"id": "C120", "title": "The cross-validation criterion of basic GWR is the leave-one-out error", "statement": "A value of the criterion is the sum over all observations of the squared error of predicting the observation with coefficients fitted, by weighted least squares, to the other observations; after a stop or when the status is not success there is no value; without a stop there is one whenever every leave-one-out system is solvable.", "quantifier": "all data, weights and stop requests", "why_tests_cant": "An identity between reals, over all data and bandwidths.", "anchors": ["src/gwmodelpp/GWRBasic.cpp:353-376: bandwidthSizeCriterionCV", "src/gwmodelpp/GWRBasic.cpp:291-318: fitCoreCVSerial"]}
{"id": "C121", "title": "The columns of the design matrix after a fit are the selected ones", "statement": "After a fit of basic GWR the design matrix consists of the intercept and of the selected columns of the matrix before the fit, in the order of the selection; selected positions are distinct and refer to candidate columns; every model reported by the selection carries the criterion of the regression on exactly the columns named.", "quantifier": "all design matrices, regressions, sorters, settings and stop requests", "why_tests_cant": "Which columns are selected depends on all regression values; only finitely many can be tried.", "anchors": ["src/gwmodelpp/GWRBasic.cpp:109-130: fit, variable selection", "include/gwmodelpp/VariableForwardSelector.h:26-35: index2uvec", "src/gwmodelpp/GWRBasic.cpp:396-419: indepVarsSelectionCriterion"]}
{"id": "C122", "title": "The result belongs to the reported bandwidth and columns", "statement": "The coefficients returned by a fit of basic GWR are those of the regression on the columns and with the bandwidth the object reports; with bandwidth selection the bandwidth is one of the listed ones, every listed criterion was computed on the selected columns, and none is smaller; a fit stopped between its stages returns zeros and reports it.", "quantifier": "all regressions, settings and stop requests", "why_tests_cant": "The stages interact through the state of the object for every possible sequence of criterion values.", "anchors": ["src/gwmodelpp/GWRBasic.cpp:62-170: fit", "src/gwmodelpp/GWRBasic.cpp:353-394: bandwidthSizeCriterionCV, bandwidthSizeCriterionAIC", "include/gwmodelpp/GWRBasic.h:400-432: getCriterion"]}
{"id": "C123", "title": "Fitting an object twice gives the same result", "statement": "A second call of fit on the same object of basic GWR returns the same coefficients.", "quantifier": "all objects and regressions", "why_tests_cant": "Needs the state left by every possible first run.", "anchors": ["src/gwmodelpp/GWRBasic.cpp:62-170: fit", "src/gwmodelpp/VariableForwardSelector.cpp:66-76: select"]}
{"id": "C124", "title": "The default bounds keep the selected bandwidth sensible", "statement": "With default bounds an automatically selected bandwidth of basic GWR lies between the bounds: fixed ones between 0 and the largest distance, adaptive ones between 20 and the number of observations.", "quantifier": "all criteria and numbers of observations", "why_tests_cant": "Bounds of a search over every possible criterion.", "anchors": ["src/gwmodelpp/GWRBasic.cpp:132-156: fit, bandwidth selection"]}
{"id": "C125", "title": "A cancelled run does not affect later runs", "statement": "After a run that was cancelled, a later run of the same object of basic GWR that is not cancelled performs the selections asked for.", "quantifier": "all objects, regressions and stop requests", "why_tests_cant": "The flag survives in the object for every later call; a test would have to cancel at each point.", "anchors": ["src/gwmodelpp/GWRBasic.cpp:62-170: fit", "include/gwmodelpp/Algorithm.h:85: GWM_LOG_STOP_RETURN", "src/gwmodelpp/GWRBasic.cpp:353-419: criteria"]}
{"id": "C126", "title": "Failing or undefined criteria during variable selection are handled", "statement": "If regressions of the variable selection of basic GWR fail or give undefined criteria, fit ends with a result or an exception.", "quantifier": "all regressions and thresholds", "why_tests_cant": "The failure depends on the position of the failing model in the search, for any number of variables.", "anchors": ["src/gwmodelpp/GWRBasic.cpp:396-419: indepVarsSelectionCriterion", "src/gwmodelpp/VariableForwardSelector.cpp:52-76: sort, select", "include/gwmodelpp/GWRBase.h:90-94: AICc"]}
{"id": "C127", "title": "Variables are selected by global models", "statement": "The variable selection of basic GWR does not depend on the bandwidth of the object, and the weights used in it differ from one by at most three times the distance (or the number of observations, for adaptive bandwidths) divided by DBL_MAX.", "quantifier": "all kernels, distances, bandwidths and regressions", "why_tests_cant": "A bound over all distances and kernels.", "anchors": ["src/gwmodelpp/GWRBasic.cpp:396-419: indepVarsSelectionCriterion", "src/gwmodelpp/spatialweight/BandwidthWeight.cpp:35-61: weight"]}
{"id": "C128", "title": "Cross-validation of generalised GWR leaves the observation out", "statement": "The CV criterion of generalised GWR is the sum of squared differences between each observation and the mean predicted for it without using that observation.", "quantifier": "all families, data, covariates, weights, iteration limits and tolerances", "why_tests_cant": "Whether a prediction uses its own observation cannot be seen from the criterion value.", "anchors": ["src/gwmodelpp/GWRGeneralized.cpp:568-612: bandwidthSizeGGWRCriterionCVSerial", "src/gwmodelpp/GWRGeneralized.cpp:763-802: PoissonWtSerial"]}
{"id": "C129", "title": "Diagnostics of generalised GWR and of its global model", "statement": "AIC, AICc, deviance and pseudo R2 of the local and of the global model satisfy their textbook formulas (deviance + 2 k, + 2 k (k + 1) / (n - k - 1), 1 - deviance / null deviance).", "quantifier": "all numbers of observations and variables, deviances and traces", "why_tests_cant": "The global AICc divides unsigned integers: wrong by less than one, undefined for one combination of sizes.", "anchors": ["src/gwmodelpp/GWRGeneralized.cpp:92-156: fit", "src/gwmodelpp/GWRGeneralized.cpp:185-205: CalGLMModel"]}
{"id": "C130", "title": "Regression data of generalised GWR can be set", "statement": "hasRegressionData() returns the value last given to setHasRegressionData, and regressionData() the matrix last given to setRegressionData.", "quantifier": "all sequences of setter calls", "why_tests_cant": "State after arbitrary call sequences.", "anchors": ["include/gwmodelpp/GWRGeneralized.h:515-531: setHasRegressionData, setRegressionData"]}
{"id": "C131", "title": "Bandwidth criteria of one multiscale variable", "statement": "For one variable x and its partial response y, the CV criterion is the sum over the locations of (y_i - x_i b_i)^2 with b_i the weighted least squares slope fitted without observation i; the AIC criterion is n ln(RSS/n) + n ln(2 pi) + n (n + tr S)/(n - 2 - tr S) for the full local fits; both are DBL_MAX exactly when the evaluation was cancelled or a local fit failed, so that a bandwidth which reproduces the response exactly is preferred to one which does not.", "quantifier": "all n, x, y, weights, cancellation points, inverse routines meeting their contract", "why_tests_cant": "Optimality and formulas over all real inputs; the edge cases (perfect fit, zero denominator) have measure zero in random tests.", "anchors": ["src/gwmodelpp/GWRMultiscale.cpp:400-447: bandwidthSizeCriterionVarCVBase, bandwidthSizeCriterionVarAICBase", "src/gwmodelpp/GWRMultiscale.cpp:547-607: fitVarCoreCVSerial, fitVarCoreSHatSerial"]}
{"id": "C132", "title": "Bandwidth criteria of a multiscale variable agree between back ends", "statement": "The CV and AIC criteria of one variable computed with OpenMP (for every schedule of the threads) or with MPI (for every number of processes) equal those of the serial code, including the value DBL_MAX when some local fit fails.", "quantifier": "all n, x, y, weights, numbers of threads and processes, interleavings", "why_tests_cant": "Interleavings and process counts cannot be enumerated.", "anchors": ["src/gwmodelpp/GWRMultiscale.cpp:682-750: fitVarCoreCVOmp, fitVarCoreSHatOmp", "src/gwmodelpp/GWRMultiscale.cpp:965-1041: bandwidthSizeCriterionVarCVMpi, bandwidthSizeCriterionVarAICMpi"]}
{"id": "C133", "title": "AICc of a multiscale variable penalises effective parameters", "statement": "Of two bandwidths of a variable, the one with the larger residual sum of squares and the larger trace of the hat matrix never has the smaller AICc; in particular a bandwidth using more than n - 2 effective parameters is never preferred to the global fit with one parameter.", "quantifier": "all n, x, y and pairs of weights", "why_tests_cant": "A monotonicity statement over pairs of real-valued fits.", "anchors": ["src/gwmodelpp/GWRMultiscale.cpp:424-447: bandwidthSizeCriterionVarAICBase", "include/gwmodelpp/GWRBase.h: AICc"]}
{"id": "C134", "title": "Diagnostics of multiscale GWR", "statement": "After a fit the reported diagnostics are RSS, AIC, AICc, ENP = 2 tr S - tr SS^T, EDF = n - ENP, R2 and adjusted R2 for the hat matrix S of the whole model, whether or not the hat matrix was requested.", "quantifier": "all n, responses, hat matrices, residual sums of squares", "why_tests_cant": "Values over all real inputs, and a field that is never written.", "anchors": ["src/gwmodelpp/GWRMultiscale.cpp:53-76: CalcDiagnostic", "src/gwmodelpp/GWRMultiscale.cpp:252-280: fit"]}
{"id": "C135", "title": "Multiscale GWR objects can be fitted again", "statement": "Calling fit twice gives the same result; after a fit the object still holds the design matrix it was given; and a bandwidth that was to be selected is selected again in a later fit, for instance for another response.", "quantifier": "all designs, responses, bandwidths, initial types, selectors, cancellation points", "why_tests_cant": "State left behind by an arbitrary first run.", "anchors": ["src/gwmodelpp/GWRMultiscale.cpp:78-291: fit", "src/gwmodelpp/GWRMultiscale.cpp:320-398: backfitting, mBandwidthInitilize set to Specified"]}
{"id": "C136", "title": "Variable selection criterion of density regression", "statement": "While bandwidths are to be optimised or one of them is zero, a set of variables is judged by the AICc of its ordinary least squares fit, with the number of columns as trace, whatever the weights; otherwise by the AICc of the density regression fit would make with the same weights; a failed or cancelled evaluation gives DBL_MAX.", "quantifier": "all ordered fields, sizes, designs, responses, weights, inverse routines, cancellation points", "why_tests_cant": "A trace identity for all designs and an equality of two separately written loops.", "anchors": ["src/gwmodelpp/GWDR.cpp:523-602: indepVarCriterionSerial"]}
{"id": "C137", "title": "AIC bandwidth criterion of density regression", "statement": "The AIC of a set of bandwidths is the AICc of the regression made with them: every coefficient vector is the only minimiser of its weighted residual sum of squares, the trace is that of the hat matrix, and a failed or cancelled evaluation gives DBL_MAX.", "quantifier": "all ordered fields, sizes, designs, responses, weights, inverse routines, cancellation points", "why_tests_cant": "An equality of two separately written loops with different inverse routines, for all designs.", "anchors": ["src/gwmodelpp/GWDR.cpp:420-467: bandwidthCriterionAICSerial"]}
{"id": "C138", "title": "A space-time fit reports the bandwidth and lambda it used", "statement": "GTWR::fit returns the coefficients of the regression with the bandwidth and lambda the object holds afterwards and keeps them; what is not selected automatically is left as it was, lambda stays in [0,1], kernel and adaptivity never change; a stop gives zeros, one row per observation.", "quantifier": "all data, distances, criteria, regressions, cancellation points, exceptions", "why_tests_cant": "Holds across every combination of selection, cancellation and failure.", "anchors": ["src/gwmodelpp/GTWR.cpp:29-90: fit"]}
{"id": "C139", "title": "Bandwidth and lambda of a space-time fit are selected together", "statement": "With both selections automatic, the bandwidth used is the best of those listed for the lambda used, and the lambda used maximises R squared for the bandwidth used.", "quantifier": "all criteria, R squared functions, bandwidths, lambdas", "why_tests_cant": "Optimality relative to values selected later in the same run.", "anchors": ["src/gwmodelpp/GTWR.cpp:36-65: fit", "src/gwmodelpp/GTWR.cpp:540-606: LambdaAutoSelection"]}
{"id": "C140", "title": "A space-time fit can be repeated and does not disturb lambda when it fails", "statement": "Calling fit again gives the same coefficients and leaves the object as it is; a fit that throws or is cancelled leaves lambda as it was.", "quantifier": "all objects, criteria, regressions, cancellation points", "why_tests_cant": "State left behind by an arbitrary first run.", "anchors": ["src/gwmodelpp/GTWR.cpp:29-90: fit", "src/gwmodelpp/GTWR.cpp:496-538: RsquareByLambda"]}
{"id": "C141", "title": "Automatic lambda is rejected for distances without lambda", "statement": "GTWR::fit with automatic selection of lambda and a distance that is not a CRSSTDistance is rejected.", "quantifier": "all objects whose distance is not a CRSSTDistance", "why_tests_cant": "Undefined behaviour may look like success in a test.", "anchors": ["src/gwmodelpp/GTWR.cpp:54-65: fit", "include/gwmodelpp/spatialweight/SpatialWeight.h:491-495: distance<T>"]}
{"id": "C142", "title": "Products of device matrices", "statement": "A product of two cumat/custride operands, plain or transposed, leaves in every stride of the destination the matrix product of the corresponding operands and changes no other memory; operands whose inner dimensions differ are refused.", "quantifier": "all shapes, stride counts, transpositions and contents", "why_tests_cant": "Every combination of shapes and memory layouts; a wrong leading dimension only shows up for some shapes.", "anchors": ["include/gwmodelpp/utils/cumat.hpp: cuop_matmul::eval, getStrides, getStrideSize, cuop_trans, cuview", "src/gwmodelpp/utils/cumat.cpp"]}
{"id": "C143", "title": "Device regression solves the normal equations", "statement": "For every location the group-wise device computation (weighting, products, batched inversion, product into the strides of u_betas) yields (X'W_eX)^-1 X'W_e y, and the hat rows x_e (X'W_eX)^-1 X'W_e, for any number of columns, points and group size.", "quantifier": "all n, k, group sizes, work ranges, data and weights", "why_tests_cant": "No GPU in the test environment; the layout arithmetic matters for every combination of sizes.", "anchors": ["src/gwmodelpp/GWRBasic.cpp: fitCoreCuda, fitCoreSHatCuda", "include/gwmodelpp/utils/cumat.hpp: cuop_diagmul, cuop_inv, cubatched, cuop_matmul"]}
{"id": "C144", "title": "Ownership of device memory", "statement": "Every device allocation made by cumat and custride objects has exactly one owner while it lives and is freed exactly once when that owner is destroyed; construction, copy, move, view, assignment and transposition have their intended effect and leave other objects' values alone.", "quantifier": "all sequences of constructions, copies, moves, views, assignments and destructions", "why_tests_cant": "Every interleaving of special member functions; leaks and double frees are silent on a device.", "anchors": ["include/gwmodelpp/utils/cumat.hpp: cubase, cumat, custride", "src/gwmodelpp/utils/cumat.cpp: cuop_trans, cumat::operator=(cuop_trans)"]}
{"id": "C145", "title": "GPU task: setting coordinates", "statement": "After setCoords(i, u, v) or setPredictLocations(i, u, v) location i is (u, v) and the other locations are unchanged.", "quantifier": "all tasks, indices and coordinates", "why_tests_cant": "Every real coordinate, including negative and large ones.", "anchors": ["include/gwmodelcuda/GWRBasicGpuTask.h: setCoords, setPredictLocations"]}
{"id": "C146", "title": "GPU task: distance and weight objects", "statement": "Creating, copying, assigning, re-configuring and destroying tasks keeps the distance and weight of each task its own, copies every member, and frees what is no longer used.", "quantifier": "all tasks, distance types and heaps", "why_tests_cant": "Leaks and casts to a wrong type are invisible in results.", "anchors": ["include/gwmodelcuda/GWRBasicGpuTask.h: constructors, operator=, destructor, setDistanceType, setMinkwoskiDistancePoly, setMinkwoskiDistanceTheta"]}
{"id": "C147", "title": "GPU task: results of a fit", "statement": "fit returns true exactly when the regression succeeded, with its results stored in the task, and otherwise returns false and leaves the task as it was.", "quantifier": "all tasks and outcomes of the regression", "why_tests_cant": "All outcomes of the regression, including those that need a failing device.", "anchors": ["src/gwmodelcuda/GWRBasicGpuTask.cpp: fit"]}
{"id": "C148", "title": "Local ridge regression: diagnostics", "statement": "The diagnostics reported after a local ridge regression are those of the other regressions: residual sum of squares, effective parameters and degrees of freedom, R2, adjusted R2, AIC and AICc from the two traces of the hat matrix.", "quantifier": "all data, coefficients and traces", "why_tests_cant": "Real data, and any number of fits of one object; the formulas differ from those of the other regressions only in terms that look plausible.", "anchors": ["src/gwmodelpp/GWRLocalCollinearity.cpp: fit", "src/gwmodelpp/GWRBase.cpp: CalcDiagnostic"]}
{"id": "C149", "title": "Weights: double arithmetic", "statement": "Rounded at every operation, the weights are still finite numbers in [0,1], one at distance zero, decreasing in distance and, for the compact kernels, zero from the bandwidth on; an adaptive bandwidth still reaches the requested number of neighbours.", "quantifier": "all monotone roundings (binary64 among them), all kernels, bandwidths and lists of distances", "why_tests_cant": "All doubles: 2^64 values for every distance, and roundings other than that of the machine running the tests.", "anchors": ["include/gwmodelpp/spatialweight/BandwidthWeight.h: GaussianKernelFunction, ExponentialKernelFunction, BisquareKernelFunction, TricubeKernelFunction, BoxcarKernelFunction", "src/gwmodelpp/spatialweight/BandwidthWeight.cpp: weight"]}
{"id": "C150", "title": "Weights: accuracy", "statement": "In double arithmetic every weight is the value of the textbook kernel at the exact bandwidth, up to a few units in the last place of one.", "quantifier": "all kernels, fixed and adaptive bandwidths and lists of distances, all faithful roundings (binary64 among them)", "why_tests_cant": "All doubles and all lists of distances; a test sees the rounding of the machine at a few points.", "anchors": ["include/gwmodelpp/spatialweight/BandwidthWeight.h: GaussianKernelFunction, ExponentialKernelFunction, BisquareKernelFunction, TricubeKernelFunction, BoxcarKernelFunction", "src/gwmodelpp/spatialweight/BandwidthWeight.cpp: weight"]}
{"id": "C151", "title": "Standard errors of scalable GWR do not depend on the units", "statement": "Scalable GWR reports the usual standard errors sqrt(sigma^2 diag(C C')) of its coefficients (C maps the responses to the coefficients), and the traces of its hat matrix; measuring the regressors in another unit rescales the standard errors and leaves the traces.", "quantifier": "all data, neighbour lists, scales and penalties", "why_tests_cant": "Needs all data; a test has no reference value.", "anchors": ["src/gwmodelpp/GWRScalable.cpp: fitSerial, fit"]}
{"id": "C152", "title": "Standard errors of multiscale GWR are those of its coefficients", "statement": "The standard errors reported by multiscale GWR are the standard errors of the reported coefficients: where these are linear in the responses, coefficients = C y, they are sqrt(sigma^2 diag(C C')) with the residual variance sigma^2.", "quantifier": "all data, weights, bandwidth selections, stopping rules and numbers of back-fitting sweeps", "why_tests_cant": "Standard errors look plausible whichever regression they come from; only a statement about the linear map behind the coefficients separates them.", "anchors": ["src/gwmodelpp/GWRMultiscale.cpp: fit", "src/gwmodelpp/GWRBasic.cpp: fitBase"]}
{"id": "C153", "title": "Distances: double arithmetic", "statement": "Computed in double arithmetic, planar distances are finite, non-negative, zero exactly at coincident points, symmetric, increasing in the coordinate differences, subject to the triangle inequality, and close to the exact distances.", "quantifier": "all pairs and triples of points with double coordinates, all roundings", "why_tests_cant": "The failures need particular bit patterns or extreme magnitudes; a bound for all doubles cannot be sampled.", "anchors": ["include/gwmodelpp/spatialweight/CRSDistance.h: EuclideanDistance"]}
{"id": "C154", "title": "Weights from coordinates: accuracy", "statement": "The weights that SpatialWeight computes from coordinates in double arithmetic are those of the textbook kernels at the exact distances and (for adaptive bandwidths) the exact interpolated neighbour distance, up to a small error.", "quantifier": "all coordinates, focus points, kernels and bandwidths", "why_tests_cant": "Errors of three stages accumulate; only a proof bounds them for all inputs.", "anchors": ["include/gwmodelpp/spatialweight/CRSDistance.h: EuclideanDistance", "src/gwmodelpp/spatialweight/BandwidthWeight.cpp: weight", "include/gwmodelpp/spatialweight/SpatialWeight.h: weightVector"]}
{"id": "C155", "title": "A generalised GWR object can be used again", "statement": "After any sequence of calls fit of GWRGeneralized returns what a new object with the same settings would return, the weighted least squares coefficients for the bandwidth set last, and betas() is what the last fit returned.", "quantifier": "all data, families, weights, histories of fit, predict and setters, interruptions, oracles for the bandwidth search and the IRLS scores", "why_tests_cant": "Histories are unbounded; the flags predict and a cancelled run leave behind only show in later calls.", "anchors": ["src/gwmodelpp/GWRGeneralized.cpp:20-183", "include/gwmodelpp/GWRGeneralized.h:395-548", "include/gwmodelpp/Algorithm.h:60-85"]}
{"id": "C156", "title": "Local means and variances survive rounding", "statement": "In double arithmetic, in whatever order the sums are computed, the local mean, variance and standard deviation of GWSS are numbers, the variance is not negative, they differ from the exact ones by at most a small multiple of the unit roundoff times the size of the data, and a column of equal values has that value as its mean, with variance zero.", "quantifier": "all numbers of observations up to 2^40, weights between 0 and 1 with one of at least 2^-400, data up to 2^400, orders of summation, faithful roundings", "why_tests_cant": "The bound holds for every order of summation of every length; a test compares with another rounded computation, and columns of equal values are usually tested with equal weights, where the errors cancel.", "anchors": ["src/gwmodelpp/GWSS.cpp:102-132"]}
{"id": "C157", "title": "A robust regression object: selections, repeated calls, settings that do nothing", "statement": "A GWRRobust object that returns from fit has chosen the same variables, columns and bandwidth (and lists the same criteria) as a GWRBasic object in the same circumstances without bounds for the bandwidth; its coefficients are those of the robust calibration on the columns and weight it then holds, starting with a mask of ones.  Without automatic selection the answer of fit after any sequence of calls (fit, predict, setFiltered) is the answer of a new object with the same settings: no mask or coefficients are left behind.  Refuted parts: the kind of calibration has no initial value, so an object whose setFiltered was never called never returns coefficients defined by the code; bounds set for the bandwidth have no effect; prediction ignores the mask, so predictions at the data locations are not the fitted coefficients.", "quantifier": "All objects, worlds, oracles for the regressions and criteria, cancellations, and all sequences of calls (induction over the sequence).", "why_tests_cant": "A test runs one object once, always after setFiltered, usually without bounds, and does not compare prediction with fit.", "anchors": ["src/gwmodelpp/GWRRobust.cpp:30-118", "src/gwmodelpp/GWRRobust.cpp:225-235", "include/gwmodelpp/GWRRobust.h:42-66", "include/gwmodelpp/GWRRobust.h:131"]}
{"id": "C158", "title": "CUDA loops of multiscale regression", "statement": "The loops fitVarCoreCuda, fitVarCoreCVCuda and fitVarCoreSHatCuda over groups of locations return, for every location of the range, the coefficient of the weighted regression on one variable (the leave-one-out one in the CV loop), its row of the hat matrix, the trace of the hat matrix and the sum of its squares, and after a cancellation those of the finished groups and zeros elsewhere; the criteria built on them are those of the serial code.  Refuted parts: a location without a fit is reported by the fit only, the two criteria go on with zero coefficients from that group on, so that a bandwidth at which no observation can be predicted may have the smallest criterion; the sum of squares counts the end of the group before again if the last group is incomplete; with the hat matrix a range not starting at 0 (left behind by an MPI fit) throws; a group length larger than the range makes the fit throw and the criteria return zeros for any data; a group length of 0 divides by zero; each fit leaves two arrays allocated.", "quantifier": "All sizes, ranges, group lengths, data, weights, device inverses meeting their contract, cancellations and failing groups (induction over groups); all sequences of calls for the arrays.", "why_tests_cant": "The CUDA tests need a device, use one data set and one group length on regular data and compare with fixed numbers; irregular bandwidths, cancellations and ranges do not occur.", "anchors": ["src/gwmodelpp/GWRMultiscale.cpp:755-943", "src/gwmodelpp/GWRMultiscale.cpp:400-447", "src/gwmodelpp/GWRMultiscale.cpp:177"]}
{"id": "C159", "title": "Distances on the device follow the coordinates that were set", "statement": "A CRSDistance prepared for CUDA computes on the device the same distances as on the host, over any sequence of makeParameter, setGeographic, setUseCuda, prepareCuda and copies, when all coordinates were set before the first preparation and there are as many focus points as data points.  Refuted parts: makeParameter does not reset mCudaPrepared, so prepareCuda never uploads coordinates set later: the device keeps working with the first ones (exact result given for all sequences); predict after fit uses distances between data points instead of from the locations, and reads outside the arrays with more locations than data; a second fit with other coordinates selects the bandwidth with the new coordinates (the criteria copy the distance, a copy uploads) and calibrates with the old ones; a copy of a prepared object without coordinates never works on the device; preparing without coordinates dereferences null; MinkwoskiDistance inherits the planar device function, ignoring exponent and angle.", "quantifier": "All coordinates, sequences of calls, focus indices and both kinds of distance (induction over the sequence).", "why_tests_cant": "The CUDA tests fit one object once; staleness needs two coordinate sets on one prepared object and a device, and the results look plausible.", "anchors": ["src/gwmodelpp/spatialweight/CRSDistance.cpp:83-184", "src/gwmodelpp/spatialweight/Distance.cpp:19-32", "src/gwmodelpp/spatialweight/MinkwoskiDistance.cpp:8-18", "src/gwmodelpp/GWRBasic.cpp:173-183", "src/gwmodelpp/GWRBasic.cpp:351"]}
{"id": "C160", "title": "A scalable regression object can be used again", "statement": "What fit and predict of a GWRScalable object return depends only on the data, bandwidth, kernel and criterion it holds at that time: the parameters are optimised on the neighbours of the observations, the coefficients come from the nearest observations, as many as the bandwidth says and at most n - 1; betas() and diagnostic() belong to the last fit.  Holds for every sequence of earlier calls when the kernel is Gaussian or Exponential and the criterion is a number.  Refuted parts: otherwise fit silently returns the coefficients of an earlier fit of other data; fitting few observations reduces the bandwidth of the object for good (exact value after any calls), so that later data gets fewer neighbours than asked for; a cancelled prediction returns a matrix with one column per observation; a fit cancelled at its end leaves new coefficients with old diagnostics; predict overwrites betas().", "quantifier": "All data, bandwidths, sequences of fit, predict and setter calls and answers of the telegram (induction over the sequence); the numerical stages are parameters.", "why_tests_cant": "Tests fit one object once; what is wrong shows only on the second use of an object, and the results look plausible.", "anchors": ["src/gwmodelpp/GWRScalable.cpp:300-371", "src/gwmodelpp/GWRScalable.cpp:463-549", "include/gwmodelpp/GWRScalable.h:231-251"]}
{"id": "C161", "title": "Local normal equations and residual sums of squares are accurate in doubles", "statement": "In double arithmetic, with the sums added in any order, every entry of X'WX and X'Wy is a number whose error is at most n (2^-49 S + 2^-590), S being the sum of the magnitudes of its terms (n <= 2^40, weights in [0, 1], data of magnitude at most 2^400); entries that should be equal differ by at most twice that; diagonal entries are never negative, and positive unless every weight or value is tiny.  The residual sum of squares is a number, never negative, with an error of at most n 2^-49 RSS + n k^3 2^-45 M^2.  Refuted parts: the computed X'WX, passed to inv_sympd, is symmetric; the residual sum of squares of a perfect fit is zero; it is positive when the fit is not perfect.", "quantifier": "All monotone faithful roundings (IEEE binary64 included), numbers of observations and variables, weights, data, coefficients and orders of summation.", "why_tests_cant": "Tests compare against reference output with a tolerance of about 1e-6 on one data set; they give no bound for other data.", "anchors": ["src/gwmodelpp/GWRBasic.cpp:301-303", "src/gwmodelpp/GWDR.cpp:226-228", "src/gwmodelpp/GWRBasic.cpp:47-50"]}
{"id": "C162", "title": "A density regression (GWDR) object over several calls", "statement": "An object of GWDR keeps its coordinates, columns, weights, status, results and reports between calls. Specified: whatever was called before, a call answers as on any other object with the same settings and status; the returned matrix belongs to the columns, bandwidths and coordinates the object ends up with and is what the getters then show; a fit keeps what the user set apart from columns (with variable selection) and bandwidths (with optimisation); columns only become fewer; the selected positions name distinct earlier columns; a fit that throws leaves coefficients and diagnostics; a fit can be repeated with the same result; the current coordinates are used; optimised bandwidths depend on the data.", "quantifier": "For all objects, all sequences of fits, predictions and setter calls, all data, and all answers of the minimiser, the telegram, the criteria and the regressions.", "why_tests_cant": "Tests fit one fresh object once; the faults need a second fit, a cancelled call, a failed optimisation or fewer coordinate columns than weights.", "anchors": ["src/gwmodelpp/GWDR.cpp:32-128", "src/gwmodelpp/GWDR.cpp:523-601", "src/gwmodelpp/GWDR.cpp:765-839", "include/gwmodelpp/GWDR.h:150-264", "include/gwmodelpp/GWDR.h:312-325"]}
{"id": "C163", "title": "A local ridge regression (GWRLocalCollinearity) object over several calls", "statement": "An object of GWRLocalCollinearity keeps data, weight, distance, status, hat matrix sums, coefficients and diagnostics between calls. Specified: whatever was called before, a call answers as on any other object with the same settings and status; a fit returns the regression at its own coordinates with the weight it ends up with, and coefficients and diagnostics shown are of it; a second fit returns the same coefficients, chooses the same bandwidth and reports the same diagnostics; fits and predictions keep what the user set; a prediction has one row per location and leaves the diagnostics; bandwidths tried are numbers of existing neighbours; a cancelled or throwing fit leaves coefficients, sums and diagnostics consistent; a finished cancellation does not affect later selections.", "quantifier": "For all objects, all sequences of calls, all cancellation points, all data, and all results of the numerical stages.", "why_tests_cant": "Tests fit one object once; sums carried over from earlier calls, stale diagnostics and the status after a cancellation only show in sequences of calls.", "anchors": ["src/gwmodelpp/GWRLocalCollinearity.cpp: fit", "src/gwmodelpp/GWRLocalCollinearity.cpp: predict", "src/gwmodelpp/GWRLocalCollinearity.cpp: predictOmp", "src/gwmodelpp/GWRLocalCollinearity.cpp: fitSerial"]}
{"id": "C164", "title": "Golden-section bandwidth search in double arithmetic", "statement": "BandwidthSelector::optimize computes its golden ratio, steps, points and the difference of two criteria in doubles. Specified, for every rounding that is monotone and accurate to one unit in the last place, and bounds of magnitude up to 2^24: with a fixed bandwidth and bounds at least 0.0001 apart every evaluated bandwidth and the result are strictly between the bounds; in every state of the loop the two kept points are in order inside the bracket, whose width is within 0.00002 of golden^k (up - lo), and brackets are nested; for a unimodal criterion no bracket loses the minimiser, the result is within one bracket of it, and the search ends because the bracket is at most 0.0002 wide or the criteria differ by at most 0.00010001; at most 57 criteria are evaluated, so the limit of 100 steps is never reached; closer bounds cost two evaluations, not outside the bounds; adaptive bandwidths are integers; the result has the smallest of the evaluated criteria; without rounding the search is that of C21-C28. Expected further: the same for any bounds, and adaptive bandwidths within the bounds.", "quantifier": "all roundings, criteria, bounds, weights and states of the loop", "why_tests_cant": "the guarantees of golden-section search rest on the order of the points, which rounding can reverse when brackets become small; no test visits all brackets and roundings", "anchors": ["src/gwmodelpp/BandwidthSelector.cpp:6-82"]}
{"id": "C165", "title": "Distributed bandwidth and variable selection of basic GWR", "statement": "With MPI every process runs the same bandwidth or variable search, and each criterion is a collective operation: every process fits the locations of its range, the workers send their sums, the master adds what arrives, computes the criterion and broadcasts it. Specified, for any number of processes, with messages that are buffered or wait, arriving in any order and all processes moving in any order: the criteria broadcast are those of rounds to which every process contributed exactly once, all processes have the same list of criteria, a worker at most one behind; a selection that meets no DBL_MAX with one process ends after a bounded number of moves with every process returning the answer of the one process after the same criteria, including processes without observations; in particular for the golden-section search. Expected further: the same when local fits fail, when criteria are not finite, and that cancelling one process ends the selection on all.", "quantifier": "all numbers of processes and observations, all searches, contributions and criteria, all interleavings and both completion modes of send and broadcast", "why_tests_cant": "deadlocks and mixed-up rounds depend on timing and on the number of processes; a test sees a few interleavings of one MPI library", "anchors": ["src/gwmodelpp/GWRBasic.cpp:830-870", "src/gwmodelpp/GWRBasic.cpp:872-899", "src/gwmodelpp/GWRBasic.cpp:901-935", "src/gwmodelpp/GWRBasic.cpp:291-351", "src/gwmodelpp/GWRBasic.cpp:353-425"]}
{"id": "C166", "title": "Distributed multiscale regression", "statement": "With MPI every process runs the whole back-fitting; the criteria of a bandwidth and the coefficients of a variable are collective operations (all-gather of statuses, reductions, broadcast, all-reduce by maximum, the product of hat matrices). Specified, for any number of processes, observations and variables, whatever order the processes move in and whether or not the library synchronises in an operation: the calls of the same number always belong to the same collective operation; every execution ends after a bounded number of moves; if no coefficient is negative every process returns the coefficients and bandwidths of one process alone, also when all processes are cancelled at the same place between the loops; in general they return what one process would return with the positive parts of all local coefficients; a selection without a usable criterion throws in every process; and what one process computes is the sequence of iterations of back-fitting - each variable in turn regressed on the partial residuals that use the new coefficients of the variables before it, bandwidths searched and frozen after the given number of selections without change, until the change of the residual sum of squares is at most the threshold or the iterations are used up. Expected further: negative coefficients agree too, a failing local fit throws in every process, and cancelling one process ends the computation on all.", "quantifier": "all numbers of processes, observations, variables and iterations, all local regressions, all interleavings and degrees of synchronisation", "why_tests_cant": "whether collective operations match and end depends on every branch taken in every process; a test sees a few timings of one library", "anchors": ["src/gwmodelpp/GWRMultiscale.cpp:143-291", "src/gwmodelpp/GWRMultiscale.cpp:293-385", "src/gwmodelpp/GWRMultiscale.cpp:387-447", "src/gwmodelpp/GWRMultiscale.cpp:947-1042", "src/gwmodelpp/utils/armampi.cpp:8-25"]}
{"id": "C167", "title": "OpenMP loops have no data races", "statement": "Every parallel loop (31 of them) lets the threads write only to places that no other thread uses. Specified, for any range, assignment of iterations to threads and any overlap: when every local regression succeeds, no more than one thread sees a request to stop, and the rows of the hat matrix (and the slices of the inverse cross products of basic GWR) are stored, no two threads use the same location with a write, in all loops but two of local ridge regression. When rows are not stored they all go to row 0; what is then left in row 0 is, element by element, the last row of some thread, and every such mixture occurs. Expected: no race in the remaining cases either.", "quantifier": "all loops, settings, ranges, assignments of iterations to threads, interleavings, failing and stopped iterations", "why_tests_cant": "races depend on the timing of threads; a test run under one schedule need not show them", "anchors": ["src/gwmodelpp/GWRBasic.cpp:427-582", "src/gwmodelpp/GTWR.cpp:289-460", "src/gwmodelpp/GWRRobust.cpp:180-232", "src/gwmodelpp/GWDR.cpp:169-320", "src/gwmodelpp/GWDR.cpp:476-500", "src/gwmodelpp/GWDR.cpp:646-680", "src/gwmodelpp/GWDA.cpp:124-128", "src/gwmodelpp/GWRMultiscale.cpp:626-745", "src/gwmodelpp/GWRLocalCollinearity.cpp:279-300", "src/gwmodelpp/GWRLocalCollinearity.cpp:428-510", "src/gwmodelpp/GWRGeneralized.cpp:327-480", "src/gwmodelpp/GWRGeneralized.cpp:621-760", "src/gwmodelpp/GWSS.cpp:182-252", "include/gwmodelpp/GWRBasic.h:383-389"]}
{"id": "C168", "title": "Summary statistics objects over several calls", "statement": "A GWSS object may be given other data, coordinates, weights, modes and parallel types between calls of run, and run may be told to stop at any place. Specified, for any sequence of such calls: the function that run calls belongs to the mode and the parallel type; a run for averages returns at every location reached the weighted mean, variance, standard deviation, skewness, coefficient of variation and (if wanted) quartiles, a run for correlations the covariances and both correlations of every pair, in every order of the parallel iterations; locations not reached hold zeros (the coefficient of variation NaN) and the status is Terminated; matrices that do not belong to the mode keep the values of earlier runs. Expected further: data of unequal sizes are refused before results are touched, the status is that of the last run, and all results belong to the same data.", "quantifier": "all sequences of calls, data, weights, requests to stop and orders of iterations", "why_tests_cant": "the results depend on the history of the object and on where a run was interrupted; tests use a new object for each run", "anchors": ["src/gwmodelpp/GWSS.cpp:63-132", "src/gwmodelpp/GWSS.cpp:134-173", "src/gwmodelpp/GWSS.cpp:175-253", "src/gwmodelpp/GWSS.cpp:255-319", "include/gwmodelpp/GWSS.h:123-169", "include/gwmodelpp/GWSS.h:361-381", "include/gwmodelpp/Algorithm.h:66-84"]}
{"id": "C169", "title": "Principal components objects over several calls", "statement": "A GWPCA object may be given other data, coordinates, weights and numbers of components between calls of run, and run may be told to stop at any place. Specified, whatever the object held before: a run that reaches at least one location stores at every location reached the first components of the decomposition there, the percentages of variance, and the singular values over the square root of the sum of the weights at the last location reached; locations not reached hold zeros (percentages NaN) and the status is Terminated; a request before the loop changes the status alone. Expected further: a run that reaches nothing does not return results, a run that fails leaves the results of one run together, impossible numbers of components and unequal sizes are refused before results are touched, the status is that of the last run, and the standard deviations of a location do not depend on where the run stopped.", "quantifier": "all objects, data, weights, decompositions, requests to stop and numbers of components", "why_tests_cant": "the results depend on the history of the object and on where a run was interrupted or failed; tests use a new object and a complete run", "anchors": ["src/gwmodelpp/GWPCA.cpp:6-17", "src/gwmodelpp/GWPCA.cpp:19-45", "src/gwmodelpp/GWPCA.cpp:47-52", "include/gwmodelpp/GWPCA.h:36-71", "include/gwmodelpp/GWPCA.h:116-131", "include/gwmodelpp/Algorithm.h:66-84"]}
{"id": "C170", "title": "Local sums computed from coordinates in doubles", "statement": "An entry of the local normal equations, computed in binary64 from coordinates (distances, adaptive or fixed bandwidth, kernel weights, products and additions in any order, a location left out or none), is the sum of K(d_j, h) x_j y_j with the exact distances d_j and the bandwidth h of these distances, up to (n 2^-49 + 2^-44) sum |x_j y_j| + n 2^-590; and the coefficient of a local regression on one variable is the quotient of the exact sums up to the corresponding error.", "quantifier": "all points, bandwidths and columns of moderate size, kernels, locations left out, orders of summation and accurate inversions", "why_tests_cant": "an error bound for all inputs cannot be observed on any number of runs, and reference values are themselves computed in doubles", "anchors": ["src/gwmodelpp/GWRBasic.cpp:299-303", "src/gwmodelpp/GWRMultiscale.cpp:506-511", "src/gwmodelpp/GWRMultiscale.cpp:533-537", "src/gwmodelpp/spatialweight/BandwidthWeight.cpp:35-61", "include/gwmodelpp/spatialweight/CRSDistance.h:96-100"]}
{"id": "C171", "title": "Backfitting approaches a solution", "statement": "The sweeps of multiscale regression with given bandwidths approach contributions of the variables each of which is the local regression of what the others leave, so that the run ends by convergence. In detail: every sweep sets each contribution to the smoother of its weights applied to the response less the newest other contributions; with one variable the first sweep settles everything; with two variables the distance to a solution shrinks by a factor q with every sweep if the product of the two smoothers shrinks distances by q; it need not do so, and then coefficients and residuals can grow without bound although a solution without residuals exists.", "quantifier": "all data, weights, bandwidths, numbers of sweeps and starting coefficients; both criteria, all iteration limits", "why_tests_cant": "convergence is about unboundedly many sweeps, and growth by less than one percent per sweep is easily taken for slow convergence in a run cut off at the iteration limit", "anchors": ["src/gwmodelpp/GWRMultiscale.cpp:293-385", "src/gwmodelpp/GWRMultiscale.cpp:387-398", "src/gwmodelpp/GWRMultiscale.cpp:488-545"]}
{"id": "C172", "title": "Scoring and maximum likelihood", "statement": "The rounds of generalised GWR, carried on without end, approach the local maximum likelihood estimates: if the coefficients of the rounds converge, the limit maximises at every location the likelihood weighted by the weights of that location. In detail: the limit solves, at each location, equations in which every observation is linearised at the coefficients of its own location; with the same weights at all locations the limit is the maximum likelihood estimate; with weights that differ, coefficients of a Poisson model with intercept can tend to the local estimates only if neighbouring estimates predict the same at the points they share, and in general they do not.", "quantifier": "all data, designs, weights and local solvers solving the normal equations; both families; all infinite sequences of rounds and their limits", "why_tests_cant": "the limit of infinitely many rounds is never reached by a run, and a fit that is plausible but not the local maximum looks like any other fit", "anchors": ["src/gwmodelpp/GWRGeneralized.cpp:763-801", "src/gwmodelpp/GWRGeneralized.cpp:847-887"]}
{"id": "C173", "title": "Effective number of parameters", "statement": "The effective number of parameters that basic GWR reports lies between the number of columns and the number of observations, is the number of columns when all weights are equal, and reaches the number of observations only when the fit passes through every one of them; so the effective degrees of freedom are never negative, and the AICc used to choose a bandwidth has a minimum over the bandwidths.", "quantifier": "all data, designs, weights between 0 and 1 with weight 1 at the location itself, solvers; all bandwidths", "why_tests_cant": "an inequality between traces over all real designs cannot be sampled, and a criterion without a lower bound looks like a good score wherever it is evaluated", "anchors": ["src/gwmodelpp/GWRBasic.cpp:246-289", "src/gwmodelpp/GWRBasic.cpp:47-60", "include/gwmodelpp/GWRBase.h:90-94"]}
{"id": "C174", "title": "A local fit needs enough neighbours", "statement": "A basic GWR calibration or prediction that completes had, at every location, at least as many observations of non-zero weight as the model has columns, and a cross-validation that completes had that many besides the observation left out; otherwise the cross-validation score is the largest double. With a kernel of bounded support and a bandwidth of m neighbours (not more than there are observations) fewer than m observations have a non-zero weight, so a calibration with p columns needs a bandwidth of at least p + 1, and its cross-validation at least p + 2, whatever the data.", "quantifier": "all data, designs, distances with or without ties, bounded kernels, bandwidths, solvers whose result is an inverse", "why_tests_cant": "that no data whatever can be fitted with a given bandwidth is a statement about all matrices; tests show single data sets failing", "anchors": ["src/gwmodelpp/GWRBasic.cpp:209-233", "src/gwmodelpp/GWRBasic.cpp:246-316", "src/gwmodelpp/GWRBasic.cpp:348-371", "src/gwmodelpp/spatialweight/BandwidthWeight.cpp:35-58"]}
{"id": "C175", "title": "Large bandwidths and sensitivity to the weights", "statement": "When the weights of a location change by at most a fraction d < 1 of themselves, the values that basic GWR fits from the coefficients of that location change, in the root mean square of the old weights, by at most d / (1 - d) times the residuals; so with weights within d of 1 they are that close to those of the global regression. For every kernel the weights of a fixed bandwidth tend to 1 uniformly in distances up to a given one, and those of an adaptive bandwidth above the number of observations tend to 1 uniformly in all distances that are not all zero. With independent columns the fit then succeeds and all local coefficients tend to those of the global regression.", "quantifier": "all data, designs with independent columns, weights, kernels, distances and bandwidths", "why_tests_cant": "a limit over all bandwidths and an inequality over all data cannot be sampled; a test compares one large bandwidth with a global fit up to a tolerance", "anchors": ["src/gwmodelpp/GWRBasic.cpp:246-289", "include/gwmodelpp/spatialweight/BandwidthWeight.h:68-121", "src/gwmodelpp/spatialweight/BandwidthWeight.cpp:35-58"]}
{"id": "C176", "title": "Undefined and infinite distances, bandwidths below one neighbour", "statement": "An observation whose distance is undefined (NaN) is never counted: with fewer neighbours than observations the weighting throws, and otherwise its weight is NaN, or zero with the Boxcar kernel, on CPU and GPU alike. An infinitely distant observation has weight zero with every kernel and fixed bandwidth. An adaptive bandwidth of less than one neighbour is refused for all distances and kernels.", "quantifier": "all kernels, distances and bandwidths, positions of undefined or infinite distances", "why_tests_cant": "special values of doubles at any position and for every kernel and device; tests use finite distances and one device", "anchors": ["src/gwmodelpp/spatialweight/BandwidthWeight.cpp:35-61", "include/gwmodelpp/spatialweight/BandwidthWeight.h:68-121", "src/gwmodelpp/spatialweight/cuda/BandwidthWeightKernel.cu:6-118"]}
{"id": "C177", "title": "Leave-one-out residuals from the hat matrix", "statement": "At every location of the work range, the residual of the basic regression equals one minus the location's own entry of the hat matrix times the residual of the fit made without that location. With weights that are not negative the entry lies in [0, 1), so the cross-validation score is the sum over the locations of (residual / (1 - own entry))^2 of the one full fit, is never below the residual sum of squares, and equals it only if every location has no influence on its own fit or is fitted exactly. With an inverse that fails on singular matrices only, the leave-one-out fit goes through exactly when no own entry equals one.", "quantifier": "all matrices, responses, weights, work ranges and inverses that meet the contract (exact arithmetic over any ordered field)", "why_tests_cant": "An identity between two different loops of the program (the fit and the leave-one-out fit) over all data; a test compares the two on given data within a tolerance and cannot show that the score is bounded below or when the leave-one-out fit must fail.", "anchors": ["src/gwmodelpp/GWRBasic.cpp:246-289", "src/gwmodelpp/GWRBasic.cpp:291-318", "src/gwmodelpp/GWRBasic.cpp:350-374"]}
{"id": "C178", "title": "Scaling device matrices and lists of device matrices", "statement": "Multiplying a device matrix by a diagonal leaves A diag(w) in the destination and changes nothing around it; operands whose shapes do not fit are refused. The list of matrices made for a batched inversion points at the matrices of the operand.", "quantifier": "all shapes, offsets, contents and destinations (exact arithmetic; cuBLAS as documented)", "why_tests_cant": "The status of cublasDdgmm is ignored and memory around the operands is not checked, so a mismatch shows up as a stale result or as an access outside the allocation, which tests with matching shapes cannot show.", "anchors": ["include/gwmodelpp/utils/cumat.hpp:531-549", "include/gwmodelpp/utils/cumat.hpp:815-837"]}
{"id": "C179", "title": "Means and variances of the reported quantities under a linear model", "statement": "If the response is X b + e with uncorrelated errors of mean zero and variance v, then for all weights that do not depend on the response: every local coefficient has mean b; its mean squared error is v times the factor kept for its standard error; the residual sum of squares has mean v (n - 2 tr S + tr S'S), so the reported sigma^2 is unbiased; and the residuals have mean zero and, divided by sqrt(v mQDiag), variance one. No weights give a coefficient a smaller variance than equal weights do.", "quantifier": "all designs, weights, coefficients, finite error distributions and inverses that meet the contract (exact arithmetic)", "why_tests_cant": "A statement about means over all error distributions; a simulation estimates them for one design and cannot tell row sums from column sums when they are close.", "anchors": ["src/gwmodelpp/GWRBasic.cpp:239-242", "src/gwmodelpp/GWRBasic.cpp:246-289", "src/gwmodelpp/GWRRobust.cpp:86-91", "src/gwmodelpp/GWRRobust.cpp:238-268", "src/gwmodelpp/GTWR.cpp:71-77"]}
{"id": "C180", "title": "Shrinkage of local ridge regression", "statement": "A larger ridge parameter never makes the sum of the scaled squared coefficients larger nor the weighted residual sum of squares smaller; every coefficient is at most of the order of one over the root of the parameter; a change of the unit of a regressor divides its coefficient and leaves the others; adding a constant to the response adds it to the fitted values.", "quantifier": "all data, weights, non-negative ridge parameters", "why_tests_cant": "An ordering over all pairs of parameters and all data sets, and an equivariance; finitely many runs show neither.", "anchors": ["src/gwmodelpp/GWRLocalCollinearity.cpp: ridgelm, fitSerial"]}
{"id": "C181", "title": "Diagnostics of a robust regression", "statement": "After the last robust pass the trace of the hat matrix is at least the number of coefficients, the effective number of parameters lies between the number of coefficients and the number of observations, and an observation whose robust weight is zero has a bounded influence on the reported residual variance and standard errors.", "quantifier": "all data, spatial weights in [0, 1] that are 1 at the location, non-negative robust weights", "why_tests_cant": "Bounds over all data sets and all masks, and the absence of a bound over all responses; a test samples finitely many.", "anchors": ["src/gwmodelpp/GWRRobust.cpp: CalcDiagnostic, fit, fitSerial, robustGWRCaliFirst, robustGWRCaliSecond"]}
{"id": "C182", "title": "Robust calibration follows changes of the data", "statement": "Both robust calibrations, the filtered and the iterative one, follow a change of the scale of the response, the addition of a combination of the regressors to it and an invertible recombination of the regressors: the coefficients change accordingly, the same observations get the same robust weights in every pass, and failing calibrations still fail. Data without large residuals give the coefficients of basic GWR. An observation whose studentised residual exceeds three is left out of the regression that is returned.", "quantifier": "all data, spatial weights, constants other than zero, invertible recombinations, both calibrations", "why_tests_cant": "An equivariance over all data, constants and matrices through up to 21 dependent regressions.", "anchors": ["src/gwmodelpp/GWRRobust.cpp: regressionHatmatrix, robustGWRCaliFirst, robustGWRCaliSecond, filtWeight, fitSerial"]}
