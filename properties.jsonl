{"id": "C01", "title": "Whitespace tokenising is exact", "statement": "Splitting a line on a delimiter set yields exactly the maximal runs of non-delimiter characters, in order, with nothing lost, merged or re-ordered (as soon as the line contains a delimiter after its first token; a line with none is returned as one token).", "quantifier": "every string and every delimiter set", "why_tests_cant": "Tests only sample a handful of literal lines; the claim is about all strings, including empty, all-blank and delimiter-terminated ones.", "anchors": ["core/utilities.cpp:SplitString", "core/utilities.cpp:SplitStringAdd", "core/utilities.cpp:ChopComment"]}
{"id": "C02", "title": "Trimming removes only outer white space", "statement": "TrimWhitespace returns the string with its leading and trailing blanks, tabs and newlines removed and its inner characters untouched.", "quantifier": "every string", "why_tests_cant": "The failing input (exactly one non-blank character) is a measure-zero case that no existing unit test happens to contain.", "anchors": ["core/utilities.cpp:TrimWhitespace"]}
{"id": "C03", "title": "Image-section offsets", "statement": "For an image name 'file[x1:x2,y1:y2]' the (x,y) offset added to fitted centres is exactly (x1-1, y1-1); for a name without section it is (0,0).", "quantifier": "every file name without brackets, every pair of positive integer ranges", "why_tests_cant": "Infinitely many names/sections; tests use a few literals.", "anchors": ["core/utilities.cpp:DetermineImageOffset", "core/utilities.cpp:GetPixelStartCoords", "core/utilities.cpp:GetStartCoordsFromBracket", "core/utilities.cpp:StripBrackets"]}
{"id": "C04", "title": "Command line: options, flags and arguments are recovered exactly", "statement": "Parsing a command line in which each registered option is followed by its value and each registered flag stands alone marks exactly those flags and options as set, stores exactly the given values in order, and leaves the remaining words as positional arguments in order.", "quantifier": "every list of registered option names and every well-formed argument vector built from them", "why_tests_cant": "Interaction of all option orders/counts is unbounded.", "anchors": ["core/commandline_parser.cpp:CLineParser::ParseCommandLine", "core/commandline_parser.cpp:OptionObject"]}
{"id": "C05", "title": "A vetted configuration file parses without undefined behaviour and keeps parameters and limits in step", "statement": "If the configuration vetting step accepts a list of lines, reading the function section of those lines never indexes outside the line list and produces one limits entry per parameter value, block-start indices that are strictly increasing and inside the function list.", "quantifier": "every list of input lines", "why_tests_cant": "Crash inputs (trailing X0, label containing X0, bare FUNCTION) are adversarial lines nobody writes in tests.", "anchors": ["core/config_file_parser.cpp:VetConfigFile", "core/config_file_parser.cpp:ParseFunctionSection", "core/config_file_parser.cpp:AddParameterAndLimit"]}
{"id": "C06", "title": "Configuration round trip", "statement": "Writing any model description (function blocks, functions, parameter values as numerals, limits or 'fixed') as configuration lines and reading it back returns the same function names, the same parameter values in the same order, the same block starts, and for each parameter the same fixed flag and limits.", "quantifier": "every well-formed model description", "why_tests_cant": "Unbounded number of blocks, functions, parameters and limit combinations.", "anchors": ["core/config_file_parser.cpp:ParseFunctionSection", "core/config_file_parser.cpp:AddParameterAndLimit", "core/config_file_parser.cpp:AddFunctionNameAndLabel"]}
{"id": "C07", "title": "Optional function parameters do not leak between readings", "statement": "Reading a configuration file twice in one process gives the same result as reading it once.", "quantifier": "every sequence of configuration files read in one process", "why_tests_cant": "History property: needs every sequence of calls.", "anchors": ["core/config_file_parser.cpp:ReadConfigFile", "core/config_file_parser.cpp:ParseFunctionSection"]}
{"id": "C08", "title": "Parameter-vector layout", "statement": "For any grouping of functions into blocks, the flat parameter vector consists of, per block, X0, Y0 then each function's own parameters; every index is owned by exactly one role; each function is set up with its own slice and with the centre of its own block.", "quantifier": "every list of functions (any parameter counts) and every block structure", "why_tests_cant": "Tests fix a few models; off-by-one errors show only for particular block structures.", "anchors": ["core/model_object.cpp:ModelObject::CreateModelImage", "core/model_object.cpp:ModelObject::DefineFunctionSets", "core/model_object.cpp:ModelObject::AddFunction", "core/model_object.cpp:ModelObject::PopulateParameterNames"]}
{"id": "C09", "title": "Multi-image parameter assembly", "statement": "From a joint parameter vector (5 image-description values for each image after the first, then the shared model parameters), the parameters used for image k are the shared parameters with every block centre mapped by image k's translation/rotation/scale and all other values untouched; image 0 gets the shared parameters verbatim.", "quantifier": "every number of images, every block structure, every vector", "why_tests_cant": "Index arithmetic over unbounded block structures.", "anchors": ["core/paramvector_processing.cpp:ExtractImageParams", "core/paramvector_processing.cpp:AssembleParamsForImage", "core/param_holder.cpp"]}
{"id": "C10", "title": "Multi-image centre transformation is a similarity", "statement": "The relative position of two block centres in image k is the reference relative position scaled by the pixel scale and rotated: distances scale by exactly the pixel scale, orientation is preserved, and the map can be inverted.", "quantifier": "every pair of points, every rotation angle and positive pixel scale (exact arithmetic)", "why_tests_cant": "Continuous domain.", "anchors": ["core/paramvector_processing.cpp:CalculateOffset_X0Y0"]}
{"id": "C11", "title": "Multi-image fit statistic and deviates decompose", "statement": "The joint fit statistic is the sum over images of each image's own statistic for its assembled parameters, and the joint deviates vector is the concatenation of the images' deviates.", "quantifier": "every number of images and every per-image size, with or without masks and bootstrap resampling", "why_tests_cant": "Offsets depend on all the preceding image sizes.", "anchors": ["core/model_object_multimage.cpp:ModelObjectMultImage::GetFitStatistic", "core/model_object_multimage.cpp:ModelObjectMultImage::ComputeDeviates"]}
{"id": "C12", "title": "Pixel coordinates are independent of PSF padding", "statement": "Without convolution effects, pixel (col,row) of the returned model image is the sum of all functions evaluated at FITS coordinates (col+1,row+1), whatever PSF padding was added around the image, and the returned image has exactly nCols x nRows pixels.", "quantifier": "every image size, PSF size, pixel and function list", "why_tests_cant": "All size combinations.", "anchors": ["core/model_object.cpp:ModelObject::CreateModelImage", "core/model_object.cpp:ModelObject::GetModelImageVector", "core/model_object.cpp:ModelObject::SetupModelImage"]}
{"id": "C13", "title": "Model image is the sum of the single-function images", "statement": "The model image (no oversampled regions) equals pixel by pixel the sum of the images obtained for each function alone, point sources being added after convolution and other functions before it.", "quantifier": "every list of functions, parameters, PSF (exact arithmetic)", "why_tests_cant": "Universally quantified over models and PSFs.", "anchors": ["core/model_object.cpp:ModelObject::CreateModelImage", "core/model_object.cpp:ModelObject::GetSingleFunctionImage"]}
{"id": "C14", "title": "Model image depends only on the parameter vector", "statement": "Computing the model image for the same parameter vector gives the same image regardless of which parameter vectors were evaluated before.", "quantifier": "every history of evaluations", "why_tests_cant": "History property; tests evaluate once per object.", "anchors": ["core/model_object.cpp:ModelObject::CreateModelImage", "core/oversampled_region.cpp:OversampledRegion::ComputeRegionAndDownsample", "function_objects/func_pointsource.cpp"]}
{"id": "C15", "title": "PSF convolution is linear zero-padded convolution", "statement": "Convolving an image with a PSF returns, for every pixel, the sum over PSF pixels of the PSF value times the image value displaced by the PSF pixel's offset from the PSF centre (pixel n/2), values outside the image counting as zero: no wrap-around reaches the result.", "quantifier": "every image size, PSF size and pixel values (exact arithmetic, exact DFT)", "why_tests_cant": "All sizes/parities; FFT wrap-around bugs appear only for particular size pairs.", "anchors": ["core/convolver.cpp:Convolver::DoFullSetup", "core/convolver.cpp:Convolver::ConvolveImage", "core/convolver.cpp:Convolver::ShiftAndWrapPSF"]}
{"id": "C16", "title": "Convolution algebra", "statement": "Convolution is linear in the image; a PSF that is 1 at its centre and 0 elsewhere leaves the image unchanged; with a PSF summing to 1 the total flux of an image whose sources are at least the PSF half-width from the edge is conserved.", "quantifier": "every image, every PSF (exact arithmetic)", "why_tests_cant": "Continuous, unbounded domain.", "anchors": ["core/convolver.cpp:Convolver::ConvolveImage"]}
{"id": "C17", "title": "PSF normalisation", "statement": "After normalisation the PSF pixels sum to 1 and keep their ratios, provided their sum is not zero. Adding a PSF to a model is refused exactly when a pixel is not finite, or when normalisation is requested and the pixels sum to zero or less; otherwise the normalised (or, if asked, unnormalised) PSF is the one used.", "quantifier": "every PSF array (exact arithmetic)", "why_tests_cant": "All arrays.", "anchors": ["core/convolver.cpp:Convolver::DoFullSetup", "core/model_object.cpp:NormalizePSF", "core/model_object.cpp: ModelObject::AddPSFVector"]}
{"id": "C18", "title": "Block down-sampling replaces exactly the requested region by block means", "statement": "Down-sampling an oversampled sub-image with scale s writes to every pixel of the target region the mean of its s x s block and changes no other pixel of the main image, and never reads or writes out of bounds.", "quantifier": "every region size (columns and rows may differ), scale, PSF padding", "why_tests_cant": "Only non-square regions expose a row/column mix-up.", "anchors": ["core/downsample.cpp:DownsampleAndReplace"]}
{"id": "C19", "title": "Sub-pixel averaging", "statement": "The value of a pixel computed with n x n sub-sampling is the mean of the profile at n*n points that all lie strictly inside the pixel and are placed symmetrically about its centre; so it lies between the smallest and largest sampled values and equals the plain value for a locally linear profile.", "quantifier": "every pixel, every sub-sampling factor (exact arithmetic)", "why_tests_cant": "Continuous domain and unbounded n.", "anchors": ["function_objects/func_exp.cpp:GetValue", "function_objects/func_sersic.cpp:GetValue", "function_objects/func_gaussian.cpp:GetValue"]}
{"id": "C20", "title": "Sub-sampling factor is bounded and positive", "statement": "For every radius and every positive scale length the sub-sampling factor lies between 1 and 100, and is 1 at radii of 10 pixels or more; converting the factor to an integer is defined only while the quotient fits in an int.", "quantifier": "every radius and scale length", "why_tests_cant": "The dangerous inputs are scale lengths near zero explored by optimisers.", "anchors": ["function_objects/func_exp.cpp:CalculateSubsamples", "function_objects/func_sersic.cpp:CalculateSubsamples", "function_objects/func_gaussian.cpp:CalculateSubsamples"]}
{"id": "C21", "title": "Elliptical isophotes", "statement": "For elliptical image functions, the value depends on the position only through the elliptical radius of the point: points on the same ellipse (given centre, position angle, axis ratio) get the same value, the image is symmetric under a 180-degree turn about the centre, and adding 180 degrees to the position angle changes nothing.", "quantifier": "every centre, position angle, ellipticity < 1 and position (exact arithmetic)", "why_tests_cant": "Continuous domain.", "anchors": ["function_objects/func_exp.cpp", "function_objects/func_sersic.cpp", "function_objects/func_gaussian.cpp", "function_objects/func_moffat.cpp", "function_objects/func_king.cpp"]}
{"id": "C22", "title": "Profiles have the advertised scale radii and are positive and non-increasing", "statement": "Exponential falls by 1/e per scale length; Sersic equals I_e at r_e; Gaussian falls by exp(-1/2) at sigma; Moffat equals half its central value at fwhm/2; Modified King equals I_0 at 0 and vanishes from r_t on; all are non-negative for non-negative amplitude and non-increasing in radius.", "quantifier": "every valid parameter value and radius (exact arithmetic)", "why_tests_cant": "Continuous parameter domain.", "anchors": ["function_objects/func_exp.cpp:CalculateIntensity", "function_objects/func_sersic.cpp:CalculateIntensity", "function_objects/func_gaussian.cpp:CalculateIntensity", "function_objects/func_moffat.cpp:CalculateIntensity", "function_objects/func_king.cpp:CalculateIntensity"]}
{"id": "C23", "title": "Analytic total fluxes", "statement": "The total flux reported for Exponential and Gaussian components equals the integral of the profile over the whole plane.", "quantifier": "every scale, amplitude and axis ratio (exact arithmetic)", "why_tests_cant": "An improper integral.", "anchors": ["function_objects/func_exp.cpp:TotalFlux", "function_objects/func_gaussian.cpp:TotalFlux"]}
{"id": "C24", "title": "Broken-exponential overflow guard", "statement": "The large-radius approximation used to avoid overflow differs from the exact broken-exponential formula by a bounded, tiny relative amount, and never switches the result between the inner and outer slope.", "quantifier": "every parameter set and radius beyond the switch (exact arithmetic)", "why_tests_cant": "Continuous domain.", "anchors": ["function_objects/func_broken-exp.cpp:CalculateIntensity"]}
{"id": "C25", "title": "PSF interpolation reproduces the PSF image", "statement": "Evaluating an interpolated PSF at the position of a PSF pixel returns that pixel's value, and outside the PSF image returns 0.", "quantifier": "every PSF size (square or not) and pixel", "why_tests_cant": "Needs asymmetric or non-square PSFs.", "anchors": ["function_objects/psf_interpolators.cpp:PsfInterpolator_lanczos2", "function_objects/psf_interpolators.cpp:PsfInterpolator_lanczos3"]}
{"id": "C26", "title": "Mask semantics", "statement": "With either mask convention a pixel flagged bad gets weight factor 0 and a good one factor 1, the number of valid pixels equals the number of good ones, and every other mask type is rejected.", "quantifier": "every mask array and both conventions", "why_tests_cant": "All arrays.", "anchors": ["core/model_object.cpp:ModelObject::AddMaskVector", "core/model_object.cpp:ModelObject::ApplyMask"]}
{"id": "C27", "title": "Masked pixels never influence the fit", "statement": "Changing the data or error values of masked pixels leaves the chi-squared, the Cash statistic and every deviate unchanged.", "quantifier": "every data/error image, mask and pair of values for masked pixels (IEEE arithmetic incl. NaN and infinity)", "why_tests_cant": "NaN/Inf in masked pixels are exactly the inputs masks exist for.", "anchors": ["core/model_object.cpp:ModelObject::ApplyMask", "core/model_object.cpp:ModelObject::ComputeDeviates", "core/model_object.cpp:ModelObject::ChiSquared", "core/model_object.cpp:ModelObject::CashStatistic", "core/model_object.cpp:ModelObject::FinalSetupForFitting"]}
{"id": "C28", "title": "The Levenberg-Marquardt objective is the reported statistic", "statement": "The sum of squared deviates handed to the Levenberg-Marquardt solver equals the value of the fit statistic reported for the same parameters, for chi-squared (data or model errors) and for Poisson-MLR.", "quantifier": "every image, weight vector and parameter vector (exact arithmetic)", "why_tests_cant": "Two separately coded loops must agree on all inputs.", "anchors": ["core/model_object.cpp:ModelObject::ComputeDeviates", "core/model_object.cpp:ModelObject::ChiSquared", "core/model_object.cpp:ModelObject::CashStatistic", "core/model_object.cpp:ModelObject::ComputePoissonMLRDeviate"]}
{"id": "C29", "title": "Error images become inverse-sigma weights", "statement": "An error image given as sigmas, variances or weights yields internal weights 1/sigma, 1/sqrt(variance), sqrt(weight), so the three encodings of the same errors give the same chi-squared.", "quantifier": "every error array of positive values (exact arithmetic)", "why_tests_cant": "All arrays.", "anchors": ["core/model_object.cpp:ModelObject::AddErrorVector"]}
{"id": "C30", "title": "Setup accepts only usable weights", "statement": "When fitting setup reports success for chi-squared, every unmasked pixel has a finite, non-negative weight and finite data, and at least one pixel is usable.", "quantifier": "every data, error, mask vector (IEEE)", "why_tests_cant": "Inputs with NaN/Inf/negative combinations.", "anchors": ["core/model_object.cpp:ModelObject::FinalSetupForFitting", "core/model_object.cpp:ModelObject::CheckWeightVector", "core/model_object.cpp:ModelObject::VetDataVector"]}
{"id": "C31", "title": "Poisson-MLR statistic is a proper distance", "statement": "Every Poisson-MLR term is non-negative and vanishes exactly when model and data agree; it equals the Cash statistic up to a term that does not depend on the model.", "quantifier": "every positive model value and non-negative datum (exact arithmetic)", "why_tests_cant": "Continuous domain.", "anchors": ["core/model_object.cpp:ModelObject::CashStatistic", "core/model_object.cpp:ModelObject::GenerateExtraCashTerms", "core/model_object.cpp:ModelObject::ComputePoissonMLRDeviate"]}
{"id": "C32", "title": "Information criteria", "statement": "AIC/AICc and BIC are the textbook functions of fit statistic, number of free parameters and number of data values; BIC's penalty exceeds AIC's for more than 7 data values; AICc's correction divides by zero when nData = nParams+1.", "quantifier": "all values (exact arithmetic)", "why_tests_cant": "Continuous domain, edge case in the denominator.", "anchors": ["core/statistics.cpp:AIC_corrected", "core/statistics.cpp:BIC"]}
{"id": "C33", "title": "Percentile confidence interval", "statement": "The confidence interval computed from n >= 1 samples never indexes outside the sample array, its ends are samples, lower <= upper, and at most about 15.85% of samples lie strictly below (above) it.", "quantifier": "every sample size and array", "why_tests_cant": "Rounding at every n.", "anchors": ["core/statistics.cpp:ConfidenceInterval"]}
{"id": "C34", "title": "Euclidean norm", "statement": "The overflow-safe norm used by the L-M solver equals the square root of the sum of squares.", "quantifier": "every vector (exact arithmetic)", "why_tests_cant": "Three interleaved accumulators over unbounded lengths.", "anchors": ["core/mp_enorm.cpp:mp_enorm"]}
{"id": "C35", "title": "Mersenne Twister ranges and determinism", "statement": "All random integers are in [0,2^32); the real variants stay in [0,1], [0,1), (0,1) and [0,1) respectively; equal seeds give equal streams; the output tempering loses no information.", "quantifier": "every seed and every position in the stream", "why_tests_cant": "2^19937 states.", "anchors": ["core/mersenne_twister.cpp"]}
{"id": "C36", "title": "Bootstrap samples use only valid pixels", "statement": "A bootstrap resample consists of exactly as many indices as there are valid pixels, each pointing to an unmasked pixel inside the image, whatever the random numbers; it does not terminate if no pixel is valid.", "quantifier": "every mask, every random stream", "why_tests_cant": "Random streams are unbounded.", "anchors": ["core/model_object.cpp:ModelObject::MakeBootstrapSample", "core/model_object.cpp:ModelObject::UseBootstrap"]}
{"id": "C37", "title": "Bootstrap bookkeeping", "statement": "The bootstrap result matrix holds exactly the parameter vectors of successful fits, in order, each with the image offset applied exactly once; every fit starts from the best-fit vector; failed fits are excluded from the reported statistics.", "quantifier": "every sequence of fit outcomes", "why_tests_cant": "All success/failure patterns.", "anchors": ["core/bootstrap_errors.cpp:BootstrapErrorsBase", "core/bootstrap_errors.cpp:BootstrapErrorsArrayOnly", "core/bootstrap_errors.cpp:BootstrapErrors"]}
{"id": "C38", "title": "Differential evolution respects limits and fixed parameters", "statement": "Every parameter vector the differential-evolution solver evaluates or returns lies within the limits, and fixed parameters keep their value.", "quantifier": "every random stream, objective function, limits and number of generations (exact arithmetic)", "why_tests_cant": "Random and unbounded.", "anchors": ["solvers/DESolver.cpp:DESolver::Solve", "solvers/DESolver.cpp:DESolver::Setup", "solvers/diff_evoln_fit.cpp:DiffEvolnFit"]}
{"id": "C39", "title": "Differential evolution keeps the best solution", "statement": "The best energy never increases, equals the objective at the stored best solution, and is a lower bound for every energy evaluated so far.", "quantifier": "every random stream and objective", "why_tests_cant": "Random and unbounded.", "anchors": ["solvers/DESolver.cpp:DESolver::Solve", "solvers/DESolver.cpp:DESolver::StoreSolution"]}
{"id": "C40", "title": "Differential evolution draws are memory safe", "statement": "The dimension and population indices drawn by the solver stay inside the arrays for every output of the random generator.", "quantifier": "every random stream", "why_tests_cant": "The offending draw has probability 2^-32.", "anchors": ["solvers/DESolver.cpp:DESolver::SelectSamples", "solvers/DESolver.cpp:DESolver::RandomUniform"]}
{"id": "C41", "title": "Levenberg-Marquardt respects limits and fixed parameters", "statement": "Parameters returned by the L-M fit lie within their limits (given a start within limits), fixed parameters are unchanged, inconsistent limits or starts are rejected with the documented codes.", "quantifier": "every objective, every linear-algebra result (IEEE arithmetic)", "why_tests_cant": "Unbounded iteration histories; NaN steps.", "anchors": ["solvers/mpfit.cpp:mpfit"]}
{"id": "C42", "title": "Levenberg-Marquardt never returns a worse fit than its start", "statement": "The sum of squares at the returned parameters is at most that at the starting parameters, and the reported best norm is the norm at the returned parameters.", "quantifier": "every objective and iteration history", "why_tests_cant": "Unbounded iteration histories.", "anchors": ["solvers/mpfit.cpp:mpfit"]}
{"id": "C43", "title": "Finite-difference evaluations stay within limits", "statement": "The parameter vectors used for numerical derivatives lie within the limits.", "quantifier": "every parameter value, limits and step settings", "why_tests_cant": "Needs limits narrower than the step.", "anchors": ["solvers/mpfit.cpp:mp_fdjac2"]}
{"id": "C44", "title": "QR factorisation in the L-M solver", "statement": "The Householder QR step preserves column norms and inner products (R^T R = P^T J^T J P) and its pivot array is a permutation.", "quantifier": "every matrix size and content (exact arithmetic)", "why_tests_cant": "All matrices.", "anchors": ["solvers/mpfit.cpp:mp_qrfac"]}
{"id": "C45", "title": "Solver bounds passed to Nelder-Mead and NLopt", "statement": "Fixed parameters get equal lower and upper bounds, two-sided limits are passed on, unlimited ones become infinite; every listed algorithm name maps to a distinct NLopt algorithm and unknown names are rejected.", "quantifier": "every parameter-limit vector", "why_tests_cant": "All combinations of fixed/limited flags.", "anchors": ["solvers/nmsimplex_fit.cpp:NMSimplexFit", "solvers/nlopt_fit.cpp:NLOptFit", "solvers/dispatch_solver.cpp:DispatchToSolver"]}
{"id": "C46", "title": "DREAM chains never leave the limits", "statement": "Every state recorded in a DREAM chain has all parameters within limits and locked parameters at their fixed value, once the initial states do.", "quantifier": "every random stream, likelihood, number of chains and generations", "why_tests_cant": "Random and unbounded.", "anchors": ["cdream/dream.cpp:dream", "cdream/dream_initialize.cpp:dream_initialize"]}
{"id": "C47", "title": "DREAM recorded likelihoods belong to the recorded states", "statement": "The likelihood stored with each chain state is the likelihood function at that state, and each transition either keeps the state or moves to the evaluated proposal, accepted exactly by the Metropolis rule.", "quantifier": "every random stream and likelihood", "why_tests_cant": "Random and unbounded.", "anchors": ["cdream/dream.cpp:dream"]}
{"id": "C48", "title": "DREAM proposal pairs are distinct", "statement": "The pairs of chains used in a proposal are distinct from each other and from the chain being updated, and choosing them terminates for 3 or more chains.", "quantifier": "every random stream, number of chains", "why_tests_cant": "Random.", "anchors": ["cdream/dream.cpp:dream", "cdream/gen_CR.cpp:gen_CR"]}
{"id": "C49", "title": "Gelman-Rubin diagnostic", "statement": "The scale-reduction factor is computed from the second half of the chains; it is 1 when the within-chain variance is zero, and convergence is declared only when every free parameter is below the threshold.", "quantifier": "every chain history", "why_tests_cant": "All histories.", "anchors": ["cdream/gelman_rubin.cpp:gelman_rubin", "cdream/dream.cpp:dream"]}
{"id": "C50", "title": "Resuming an MCMC run restores the chain states", "statement": "Reading back the chain files written by a run restores the parameter values of the last generation.", "quantifier": "every image offset and parameter vector", "why_tests_cant": "Needs write/resume round trip with non-zero offsets.", "anchors": ["cdream/restore_state.cpp:restore_state", "core/model_object.cpp:ModelObject::PrintModelParamsHorizontalString"]}
{"id": "C51", "title": "Outlier chains are replaced by the best chain", "statement": "Only chains whose mean log-likelihood is more than twice the inter-quartile range below the first quartile are moved, and they are moved to the state of the best chain.", "quantifier": "every likelihood history", "why_tests_cant": "All histories.", "anchors": ["cdream/check_outliers.cpp:check_outliers"]}
{"id": "C52", "title": "Oversampled-region coordinates", "statement": "The coordinate system of an oversampled region maps the centres of the s x s sub-pixels onto positions whose mean is the coordinate of the parent pixel, spanning exactly that pixel.", "quantifier": "every region, scale, PSF padding (exact arithmetic)", "why_tests_cant": "All sizes/scales.", "anchors": ["core/oversampled_region.cpp:OversampledRegion::ComputeRegionAndDownsample"]}
{"id": "C53", "title": "Generalised ellipses", "statement": "The generalised-ellipse radius is a norm-like quantity: non-negative, zero only at the centre, homogeneous of degree one, symmetric under reflections, and equal to the ordinary elliptical radius for c0 = 0.", "quantifier": "every position, c0 > -2, axis ratio (exact arithmetic)", "why_tests_cant": "Continuous domain.", "anchors": ["function_objects/helper_funcs.cpp:GeneralizedRadius", "function_objects/func_ferrersbar2d.cpp:CalculateRadius"]}
{"id": "C54", "title": "Image-description files", "statement": "Every accepted image-description block yields its parameter values and limits as written; rejected lines are reported with their true line number.", "quantifier": "every list of lines", "why_tests_cant": "All strings.", "anchors": ["core/imageparams_file_parser.cpp"]}
{"id": "C55", "title": "Memory estimates are never smaller than the FFT buffers they describe", "statement": "The memory estimate is at least 8 bytes per double and 16 bytes per complex value of the buffers the convolver allocates.", "quantifier": "every image and PSF size", "why_tests_cant": "All sizes.", "anchors": ["core/estimate_memory.cpp:EstimateConvolverMemoryUse"]}
{"id": "C56", "title": "Mean and standard deviation", "statement": "Mean is the arithmetic mean and StandardDeviation the sample standard deviation (n-1 denominator) of the values; shifting all values leaves the deviation unchanged and scaling them by a scales it by |a|; fewer than two values give no meaningful deviation.", "quantifier": "every vector of values (exact arithmetic; binary64 for the one-value case)", "why_tests_cant": "Continuous domain, any length.", "anchors": ["core/statistics.cpp:Mean", "core/statistics.cpp:StandardDeviation"]}
{"id": "C57", "title": "Components follow the image description", "statement": "On an image with another pixel scale, orientation and flux scale, a component appears rotated, enlarged and brightened as a whole; and parameters adjusted for that image, used without the description, give the same image as the original parameters used with it.", "quantifier": "every image function class, parameter vector, image description with a positive scale, and position (exact arithmetic)", "why_tests_cant": "the description enters each class's set-up separately; a missed factor shows only for particular combinations of class, rotation and scale", "anchors": ["function_objects/*.cpp: Setup, AdjustParametersForImage", "function_objects/function_object.cpp: SetImageParameters", "core/model_object_multimage.cpp"]}
{"id": "C58", "title": "DREAM runs stay inside their arrays", "statement": "With at least three chains, a new or resumed DREAM run whose length and number of chains keep the convergence counts within an int never reads or writes outside its arrays, never reads an entry not yet written and never aborts in the random-number library; it ends with a result whenever every parameter vector within the limits has a likelihood.", "quantifier": "all settings, random-number streams meeting the library's contract, likelihood functions and histories of the right shape", "why_tests_cant": "the crossover table, chain indices and windows depend on random numbers and on how far the run has got", "anchors": ["cdream/dream.cpp:dream", "cdream/gen_CR.cpp:gen_CR", "cdream/dream_initialize.cpp:dream_initialize", "cdream/gelman_rubin.cpp:gelman_rubin", "cdream/check_outliers.cpp:check_outliers"]}
{"id": "C59", "title": "Every Levenberg-Marquardt trial point is a damped least-squares step", "statement": "Every parameter vector the Levenberg-Marquardt solver tries after the start comes from the latest point at which it took finite differences: it is that point plus the minimiser of the linearised sum of squares (columns of parameters blocked by a limit left out) with a non-negative quadratic penalty, shortened by one common factor to stay within the limits, components pointing outward from a limit dropped and values next to a limit moved onto it. No step is made from a point where the gradient test would have stopped the fit.", "quantifier": "all deviate functions, starting vectors, limits, fixed parameters and tolerances, and every trial of every run (exact arithmetic; columns and deviates small enough for the scaled norm)", "why_tests_cant": "the step is the outcome of a pivoted QR factorisation, a triangular solve with Givens rotations and an iterative search for the damping; tests see only a few well-conditioned problems", "anchors": ["solvers/mpfit.cpp:mpfit", "solvers/mpfit.cpp:mp_lmpar", "solvers/mpfit.cpp:mp_qrsolv", "solvers/mpfit.cpp:mp_qrfac", "solvers/levmar_fit.cpp:LevMarFit"]}
{"id": "C60", "title": "Gradient convergence means the fit is stationary", "statement": "When the Levenberg-Marquardt fit returns status 4, the finite differences taken at the returned parameters show that no free parameter can be changed with profit: it is at a limit and the sum of squares would fall only outside, or the cosine between the deviates and that parameter's column is at most the gradient tolerance.", "quantifier": "all deviate functions, starting vectors, limits and fixed parameters (exact arithmetic; columns and deviates small enough for the scaled norm)", "why_tests_cant": "the test is made with a pivoted, scaled factorisation after columns of blocked parameters were zeroed", "anchors": ["solvers/mpfit.cpp:mpfit", "solvers/mpfit.cpp:mp_qrfac", "solvers/levmar_fit.cpp:LevMarFit"]}
{"id": "C61", "title": "Parameter errors are the formal errors of the last Jacobian", "statement": "The errors reported by the Levenberg-Marquardt fit are the square roots of the diagonal of the inverse of J^T J for the last set of finite differences, restricted to a set of columns on which it is invertible; every left-out column depends on kept ones up to the tolerance; fixed and blocked parameters get 0. The differences were taken at the result or, if the last trial was accepted, at the point before it.", "quantifier": "all deviate functions, starting vectors, limits, fixed parameters and rank-deficient problems (exact arithmetic)", "why_tests_cant": "the covariance is computed in place from a permuted triangular factor; a test compares a few full-rank cases", "anchors": ["solvers/mpfit.cpp:mp_covar", "solvers/mpfit.cpp:mpfit", "solvers/levmar_fit.cpp:LevMarFit"]}
{"id": "C62", "title": "The Levenberg-Marquardt solver stays inside its arrays", "statement": "Given a function that fills its deviates array and, when limits are given, one entry per parameter, the solver never reads or writes outside its arrays or reads an element not yet written, whatever the values, NaN and infinity included.", "quantifier": "all arithmetics (binary64 and exact), deviate functions, numbers of parameters and data, limits, and interruption points", "why_tests_cant": "indices go through permutations, leading dimensions and the number of non-singular columns, which depend on the values", "anchors": ["solvers/mpfit.cpp:mpfit", "solvers/mpfit.cpp:mp_fdjac2", "solvers/mpfit.cpp:mp_qrfac", "solvers/mpfit.cpp:mp_qrsolv", "solvers/mpfit.cpp:mp_lmpar", "solvers/mpfit.cpp:mp_covar"]}
{"id": "C63", "title": "The Levenberg-Marquardt fit comes to an end", "statement": "The Levenberg-Marquardt fit returns after finitely many evaluations, whatever the deviates.", "quantifier": "all deviate functions (continuous or not), starting vectors, limits, fixed parameters and tolerances", "why_tests_cant": "the inner loop has no bound on the number of rejected steps: it ends only because the trust region shrinks", "anchors": ["solvers/mpfit.cpp:mpfit", "solvers/levmar_fit.cpp:LevMarFit"]}
{"id": "C64", "title": "Images do not depend on threads", "statement": "Images of the whole model and of single functions, computed in any history of calls by any number of threads with any chunk size, are bit for bit those of the sequential program whatever the order in which the threads run; there is no data race, nothing is read before it was written, and all threads finish. (False for functions whose value is an integral along the line of sight and for point sources with a bicubic PSF: these write shared members while being evaluated.)", "quantifier": "all models, parameters, histories of calls, numbers of threads, chunk sizes and interleavings of the threads' memory accesses", "why_tests_cant": "Tests see a few interleavings on one machine; a missing private variable or a shared scratch member shows up only in rare orders.", "anchors": ["core/model_object.cpp: CreateModelImage, GetSingleFunctionImage", "core/oversampled_region.cpp: ComputeRegionAndDownsample", "function_objects/func_expdisk3d.cpp: GetValue", "function_objects/psf_interpolators.cpp: PsfInterpolator_bicubic::GetValue"]}
{"id": "C65", "title": "Total fluxes", "statement": "The flux reported for each component that is not a background is the one the function calculates itself or else the sum of its values over all pixels of an image with the component in the middle, with exactly the component's own parameters, the reported total is the sum of these, and backgrounds are not counted, whatever the number and order of the threads (up to rounding, which does depend on the order).", "quantifier": "all models, parameter vectors, image sizes, numbers of threads, chunk sizes and interleavings", "why_tests_cant": "A reduction over threads that loses or repeats a row shows only for some sizes, chunk sizes and numbers of threads.", "anchors": ["core/model_object.cpp: FindTotalFluxes"]}
{"id": "C66", "title": "Building a model from a configuration file is accepted exactly when it should be", "statement": "Given the functions read from a configuration file (names, labels, optional parameters, block starts) and the size of the PSF image, the model is built exactly when every name is a known function, every function's optional parameters are acceptable to it, and a PSF of at least 4x4 pixels is present whenever a point source is used; otherwise a negative status is returned. The built model has one function object per named function, in order, with its label, the parameter names X0, Y0 and then the functions' parameter names block by block, and the requested block starts. All point sources share the interpolator of the method asked for by the first.", "quantifier": "every list of non-empty function blocks with any names, labels and optional parameters, and every PSF size or none", "why_tests_cant": "the combinations of functions, options and blocks are unbounded; tests try a few files", "anchors": ["core/add_functions.cpp: AddFunctions, PopulateFactoryMap, GetFunctionParameterNames", "core/model_object.cpp: AddFunction, SetupPsfInterpolation, DefineFunctionSets, PopulateParameterNames, GetParameterName", "function_objects/func_pointsource.cpp, func_pointsource-rot.cpp: SetExtraParams"]}
{"id": "C67", "title": "A saved best-fit file can be read back", "statement": "The file of best-fit parameters written after a fit is accepted as a configuration file by imfit, imfit-mcmc and makeimage. Reading it gives the functions, labels, blocks and optional parameters of the fitted model, every centre (in full-image coordinates) correct to four decimals and every other parameter to six significant digits, with no limits; the model built from it is the model that was saved. Written with the prefix # every line is a comment.", "quantifier": "every buildable model with labels and optional parameters that fit on a line, every vector of finite parameter values, errors or none, any image offsets, any comment lines and report lines", "why_tests_cant": "Tests save and re-read a few models; that no function name, parameter name, unit text, label, number or error text can be mistaken for a keyword or a comment, for any model, needs an argument over all of them.", "anchors": ["core/print_results.cpp: SaveParameters, SaveParameters2, PrintParameters", "core/model_object.cpp: PrintModelParamsToStrings", "core/utilities.cpp: PrintToString", "function_objects/function_object.cpp: GetExtraParamsDescription", "core/config_file_parser.cpp: ReadConfigFile"]}
{"id": "C68", "title": "Columns of bootstrap and MCMC output files", "statement": "The column-header line of a bootstrap output file and of a Markov-chain file names every model parameter once, in the order of the parameter vector: X0_k and Y0_k for the k-th function block, and the name of each parameter of the n-th function followed by _n; no two columns have the same name. Every line of values written for the model has exactly one word per column, the values in the same order with image coordinates offset to the full image. A chain file has further columns likelihood, burn-in, CR1..CRn and accept, and each of its lines has the likelihood, 0 or 1, n crossover probabilities and the acceptance count in these places. The texts are produced without undefined behaviour for every model that can be built.", "quantifier": "every model that can be built from known functions (any number of blocks and functions up to the range of int), every parameter vector, offset, separator of blanks, every number-to-text conversion that gives single words of at most 400 characters, every number of crossover values", "why_tests_cant": "Scripts read the columns by name and position; that they stay aligned must hold for every combination and order of functions and every parameter value, not for the few models of a test.", "anchors": ["core/model_object.cpp: GetParamHeader, PrintModelParamsHorizontalString", "core/mcmc_main.cpp: column header", "cdream/dream.cpp: chain output", "core/bootstrap_errors.cpp: BootstrapErrors"]}
{"id": "C69", "title": "Command-line options set exactly the settings they are documented for", "statement": "For each of the five programs: a command line made of the program's documented flags, options and arguments, with well-formed values, is accepted, and then every setting of the program has the value that the command line gives it or, if the command line is silent, its default; nothing else is changed. A command line with a help/version/list switch, without any word, or with a value that does not begin like a number of the required kind (or an unknown NLopt solver name) ends the program with status 1 and so does an unknown option, a word of dashes only, and an option without its value. Repeatable options (--overpsf and its companions) keep all their values in order; of any other option given several times the first value counts.", "quantifier": "all command lines (any number of words, any order, any spelling with dashes or =) and all five programs", "why_tests_cant": "The options interact through some ninety members, several of them written by more than one option (solver, verbosity, error type, save switches); tests try a few combinations.", "anchors": ["core/imfit_main.cpp:ProcessInput", "core/mcmc_main.cpp:ProcessInput", "core/makeimage_main.cpp:ProcessInput", "core/multimfit_main.cpp:ProcessInput", "core/makemultimages_main.cpp:ProcessInput", "core/utilities.cpp:NotANumber", "core/options_base.h", "core/options_imfit.h", "core/options_mcmc.h", "core/options_makeimage.h", "core/options_multimfit.h", "solvers/nlopt_fit.cpp:ValidNLOptSolverName"]}
{"id": "C70", "title": "Command line before configuration file before default", "statement": "imfit and imfit-mcmc use for gain, read noise, exposure time, original sky and number of combined images the value on the command line if there is one, otherwise the last value in the configuration file, otherwise the default; no other setting depends on these lines. makeimage does the same for the image size, refuses a size that is not a positive integer, and then makes an image of the given size if both dimensions are known, of the reference image's size if not, of 2x2 pixels if only fluxes are wanted and neither is known, and stops with an error otherwise.", "quantifier": "all accepted command lines and all lists of configuration-file option lines", "why_tests_cant": "The outcome depends on the combination of two inputs of arbitrary length and on the order and repetition of lines.", "anchors": ["core/imfit_main.cpp:HandleConfigFileOptions", "core/mcmc_main.cpp:HandleConfigFileOptions", "core/makeimage_main.cpp:HandleConfigFileOptions", "core/makeimage_main.cpp:main"]}
{"id": "C71", "title": "A fit is started with exactly the images, numbers and statistic that were asked for", "statement": "For every well-formed command line of imfit and imfit-mcmc, every configuration file and every set of files: if the requested files exist, can be read, have matching sizes and usable PSF pixels, the fit is started on the pixels of the data image, with the mask, error image, PSF, gain, read noise, exposure time, number of combined images and original sky that command line, configuration file and defaults (in this order) give, and with the statistic in the order Cash, Poisson MLR, error image, model errors, data errors; the statistic announced is the one used. Otherwise the program ends with status -1 and no fit is started. The Cash statistic is refused exactly when the Levenberg-Marquardt solver would fit with it.", "quantifier": "all command lines, configuration lines, file systems (any outcome of opening and reading any file), number types", "why_tests_cant": "The combinations of about fifteen options, configuration lines and file states are unbounded; tests of the programs exercise a few.", "anchors": ["core/imfit_main.cpp:main, RequestedFilesPresent", "core/mcmc_main.cpp:main, RequestedFilesPresent", "core/getimages.cpp", "core/setup_model_object.cpp:SetupModelObject", "core/utilities.cpp:ImageFileExists"]}
{"id": "C72", "title": "Oversampled regions cover the requested pixels of the file", "statement": "When an image section of a file is fitted, a region for PSF oversampling given in pixels of the file covers exactly those pixels of the fitted image that lie in it, for every section and region; each region gets its own PSF image and scale or, if only one is given, the common one.", "quantifier": "all image sections (with or without an extension), all numbers of regions, PSF images and scales", "why_tests_cant": "Offsets, lists of regions and sharing of PSF images interact; only particular sections and single regions are tested.", "anchors": ["core/psf_oversampling_info.cpp:GetCorrectedRegionCoords", "core/getimages.cpp:GetOversampledPsfInfo", "core/store_psf_oversampling.cpp:ExtractAndStorePsfOversampling", "core/setup_model_object.cpp:SetupModelObject"]}
{"id": "C73", "title": "What imfit and imfit-mcmc hand to the solver", "statement": "The parameter vector handed to the solver is that of the configuration file with the position of the fitted section subtracted from the centres X0, Y0 of every block and from nothing else; the limits are shifted in the same way; fixed and limited flags are kept; the number of free parameters is the number not fixed. imfit-mcmc locks fixed parameters at their value, lets each free one range over its limits, refuses (status -2) a free parameter that lacks a limit, and uses one chain per free parameter unless told otherwise. When the number of parameters read differs from that of the model, or the data are refused, both end with status -1.", "quantifier": "every model of known functions with any number of blocks, every list of values and limits, every section position, every data set, any arithmetic", "why_tests_cant": "offsets matter only for sections not starting at pixel 1 and for models with several blocks; a test fixes one combination", "anchors": ["core/imfit_main.cpp: main 252-354", "core/mcmc_main.cpp: main 251-400", "core/model_object.cpp: GetParameterName, AddParameterInfo"]}
{"id": "C74", "title": "The numbers in the best-fit file", "statement": "The report imfit writes gives the solver's outcome, the name of the statistic in use, the statistic of the data for the saved parameters, that value divided by the degrees of freedom, the corrected AIC and the BIC; the parameters follow and can be read back by imfit and makeimage. With --fitstat-only the same numbers for the starting values are printed and no parameter file is written. An interrupted fit writes only the parameter file, under another name. The exit status is -1, with nothing written, exactly when the fit could not begin, else 0.", "quantifier": "every solver (any sequence of questions, any outcome), every model, data set, statistic, mask and printing function, binary64 arithmetic", "why_tests_cant": "depends on the whole history of the model object (evaluations, bootstrap resamples) before the file is written", "anchors": ["core/imfit_main.cpp: main 355-520", "core/print_results.cpp: PrintFitStatistic, SaveParameters", "core/model_object.cpp: GetFitStatistic"]}
{"id": "C75", "title": "The images saved after a fit", "statement": "After a fit, with or without bootstrap resampling, the model, residual and weight images that imfit saves are: the model image of the saved parameters (without the PSF border), the data minus it, and the squared weights (zero for masked and non-finite pixels, from the model for model-based errors).", "quantifier": "every solver and every bootstrap run, every model, data set, PSF size, mask and statistic, binary64 arithmetic", "why_tests_cant": "the images are read from buffers that every evaluation overwrites; which evaluation came last depends on options and on the solver", "anchors": ["core/imfit_main.cpp: main 440-485", "core/model_object.cpp: GetModelImageVector, GetResidualImageVector, GetWeightImageVector", "core/bootstrap_errors.cpp: BootstrapErrors"]}
{"id": "C76", "title": "What makeimage writes", "statement": "A call of makeimage with a readable configuration file that describes a model, and an image size from the command line, the configuration file or a reference image, ends with status 0 and leaves behind exactly what the options ask for, under the documented names: the model image (function values convolved with the normalised PSF, point sources drawn with the interpolated PSF); with --save-expanded the same image with a margin as wide as the PSF, of which the model image is the inner part; with --output-functions one image for each function, numbered in the order of the file, which add up to the model image; the header comments name the program, the configuration file, the PSF and the function with its label.", "quantifier": "every model of known functions (any number of blocks and functions), every function implementation, command line, image size, PSF image, exact arithmetic, every number of further images made by --timing", "why_tests_cant": "the outputs combine options, files, function values, convolution and buffers reused from image to image; tests compare a few stored images", "anchors": ["core/makeimage_main.cpp: main", "core/setup_model_object.cpp: SetupModelObject", "core/utilities.cpp: PrepareImageComments", "core/model_object.cpp: GetModelImageVector, GetExpandedModelImageVector, GetSingleFunctionImage"]}
{"id": "C77", "title": "The table of fluxes", "statement": "The tables that makeimage prints (--print-fluxes) and saves (--save-fluxes) have one row for each function, in order, with its name, label, flux (0 for a background, otherwise the flux in a square image of the estimation size), magnitude for the zero point if one is given and the flux is positive, and fraction of the total, and a last row for the total; the fractions add up to one if the total is not 0. The result does not depend on the order in which the threads run.", "quantifier": "every model, every function implementation, every command line, every number of threads and every schedule, exact arithmetic", "why_tests_cant": "sums over 5000 x 5000 pixels split among threads; which rows have a magnitude depends on values", "anchors": ["core/makeimage_main.cpp: DetermineFluxes", "core/model_object.cpp: FindTotalFluxes"]}
{"id": "C78", "title": "makeimage: exit status", "statement": "If makeimage ends with another status than 0 it has written nothing. The status is 1 for a command line that is refused and for a size in the configuration file that is not a positive number; it is -1 if the configuration file is missing or malformed, if an image is asked for and no size is known, if the PSF image cannot be read or its sum is not positive (unless --no-normalize is given), if a function is unknown, is given options that it does not know or lacks the PSF that it needs, and if the number of parameters is not that of the functions.", "quantifier": "every command line and every content of the files; the first claim for all arguments, files, functions and arithmetics", "why_tests_cant": "the cases are reached by different combinations of command line and files, in a fixed order of checks", "anchors": ["core/makeimage_main.cpp: main", "core/setup_model_object.cpp: SetupModelObject", "core/add_functions.cpp: AddFunctions"]}
{"id": "C79", "title": "The file that imfit writes is what makeimage draws", "statement": "After a fit by imfit that ends with values that can be printed, makeimage, given the parameter file of the fit (and an image size and, if needed, a PSF), ends with status 0 and leaves the images and tables of a model with the same blocks, functions, labels and optional parameters as the fitted one, whose centres (in coordinates of the whole image) agree with those the solver ended with to four decimals and whose other parameters agree to six significant digits.", "quantifier": "all models of known functions with any values, all data, solvers and outcomes, all positions of the fitted section, all command lines of makeimage that are accepted, all PSF images", "why_tests_cant": "two programs, a text format and rounding are involved; a test compares one pair of images", "anchors": ["core/imfit_main.cpp:main", "core/print_results.cpp:SaveParameters", "core/model_object.cpp:PrintModelParamsToStrings", "core/config_file_parser.cpp:ReadConfigFile", "core/makeimage_main.cpp:main"]}
{"id": "C80", "title": "3D components are projected along the line of sight", "statement": "The value of a 3D component at a pixel is the integral, along the line of sight through the pixel, of the luminosity density that the manual gives for the function: a density about a plane whose line of nodes is at the position angle PA, tilted by the inclination, with the major axis of rings and bars at 90 degrees plus PA_ring or barPA from the line of nodes. The relative error is that of the integrator plus e^-100 for the approximations made far from the centre.", "quantifier": "all functions, parameters for which the density is defined, image descriptions, pixels (in fact all points of the plane) and all integrators of a given relative accuracy", "why_tests_cant": "a test evaluates a few points of face-on or edge-on components, for which the angles play no role", "anchors": ["function_objects/func_expdisk3d.cpp: ExponentialDisk3D::GetValue", "function_objects/func_brokenexpdisk3d.cpp: BrokenExponentialDisk3D::GetValue", "function_objects/func_gaussianring3d.cpp: GaussianRing3D::GetValue", "function_objects/func_ferrersbar3d.cpp: FerrersBar3D::GetValue", "function_objects/func_peanut_dattathri.cpp: DattathriPeanut3D::GetValue", "function_objects/helper_funcs_3d.cpp: Compute3dObjectCoords"]}
{"id": "C81", "title": "Symmetry of projected 3D components", "statement": "The image of a 3D component is unchanged by a half turn about its centre. The image of a disc is also symmetric about its line of nodes and the perpendicular; a disc seen face-on has circular isophotes and an exponential one fades as exp(-r/h). All this up to the accuracy of the integrator.", "quantifier": "all functions and sensible parameters, image descriptions and points, all integrators of a given relative accuracy", "why_tests_cant": "symmetry relates two points for every position and orientation; tests check single values", "anchors": ["function_objects/func_expdisk3d.cpp: ExponentialDisk3D::GetValue", "function_objects/func_brokenexpdisk3d.cpp: BrokenExponentialDisk3D::GetValue", "function_objects/func_gaussianring3d.cpp: GaussianRing3D::GetValue", "function_objects/func_ferrersbar3d.cpp: FerrersBar3D::GetValue", "function_objects/func_peanut_dattathri.cpp: DattathriPeanut3D::GetValue", "function_objects/helper_funcs_3d.cpp: Compute3dObjectCoords"]}
{"id": "C82", "title": "The integral along the line of sight misses no light", "statement": "The finite interval of integration contains all the light of a Ferrers bar, and pixels outside its radius are exactly 0. An exponential disc that is not thicker than its scale length loses at most 2*2^(2/n)*e^-20*J_0*h per pixel. A ring shows its light for every radius.", "quantifier": "all sensible parameters, image descriptions, orientations and points", "why_tests_cant": "the limits depend on the parameters; a test with one set of parameters cannot show that they suffice", "anchors": ["function_objects/func_expdisk3d.cpp: ExponentialDisk3D::GetValue", "function_objects/func_brokenexpdisk3d.cpp: BrokenExponentialDisk3D::GetValue", "function_objects/func_gaussianring3d.cpp: GaussianRing3D::GetValue", "function_objects/func_ferrersbar3d.cpp: FerrersBar3D::GetValue", "function_objects/func_peanut_dattathri.cpp: DattathriPeanut3D::GetValue", "function_objects/helper_funcs_3d.cpp: Compute3dObjectCoords"]}
{"id": "C83", "title": "3D components on another image", "statement": "On an image with another pixel scale, rotation and intensity scale, a 3D component is rotated and rescaled and its brightness multiplied by the intensity scale. The parameters reported for that image give, without description, the same picture.", "quantifier": "all functions, sensible parameters, descriptions with positive pixel scale and points", "why_tests_cant": "a relation between two images for every description; the combination is used only by multimfit", "anchors": ["function_objects/func_expdisk3d.cpp: ExponentialDisk3D::GetValue", "function_objects/func_brokenexpdisk3d.cpp: BrokenExponentialDisk3D::GetValue", "function_objects/func_gaussianring3d.cpp: GaussianRing3D::GetValue", "function_objects/func_ferrersbar3d.cpp: FerrersBar3D::GetValue", "function_objects/func_peanut_dattathri.cpp: DattathriPeanut3D::GetValue", "function_objects/helper_funcs_3d.cpp: Compute3dObjectCoords", "function_objects/func_ferrersbar3d.cpp: AdjustParametersForImage"]}
{"id": "C84", "title": "FlatBar", "statement": "Along each direction through its centre a flat bar has a broken-exponential profile: inner scale length h1, a break at the distance r_b from the centre, and an outer scale length that changes quadratically with the angle from the major axis, from h2 on the axis to h1 at deltaPA_max and beyond. Sub-sampling averages this over the pixel. The image is symmetric about both axes of the bar. On another image the brightness is multiplied by the intensity scale and the reported parameters give the same picture.", "quantifier": "all parameters with positive scale lengths and non-zero axis ratio and alpha, all descriptions and points", "why_tests_cant": "the outer scale length depends on the direction, by formulas that appear twice in the code", "anchors": ["function_objects/func_flatbar.cpp: FlatBar::Setup", "function_objects/func_flatbar.cpp: FlatBar::GetValue", "function_objects/func_flatbar.cpp: GetAdjustedRbh2", "function_objects/func_flatbar.cpp: ParabolicInterpolation", "function_objects/func_flatbar.cpp: AdjustParametersForImage"]}
{"id": "C85", "title": "A joint fit starts from what the two files say", "statement": "When several images are fitted together, the solver starts from the values and limits of the image-info file and of the configuration file (descriptions of the images after the first, then the model), moved into the coordinates of the fitted image sections; the number of degrees of freedom is the number of valid pixels of all images less the number of parameters that are not fixed. The program stops with status -1 if an image cannot be drawn, the number of parameters is not that of the functions, or the set-up of an image fails.", "quantifier": "every model, number of images, image description, limits, sections, valid or invalid data", "why_tests_cant": "the layout depends on the number of images, blocks and functions and on which parameters have limits; tests use two images and one model", "anchors": ["core/multimfit_main.cpp:main", "core/model_object_multimage.cpp:ModelObjectMultImage", "core/utilities_multimfit.cpp:CorrectForImageOffsets"]}
{"id": "C86", "title": "Fitting sections of several images only changes coordinates", "statement": "With the start values given to the solver, every image of a joint fit is described by its own pixel scale, rotation and flux scale, and its model is the one it would have without image sections, with every centre moved by the origin of that image's own section.", "quantifier": "every model, number of images, description and set of sections (exact arithmetic)", "why_tests_cant": "the reference image's section enters through the relative positions of all centres in all other images; a wrong sign or index shows only when sections differ between images", "anchors": ["core/multimfit_main.cpp:main", "core/model_object_multimage.cpp:ModelObjectMultImage", "core/utilities_multimfit.cpp:CorrectForImageOffsets", "core/param_holder.cpp:ParameterHolder"]}
{"id": "C87", "title": "The statistic and deviates of a joint fit are those of its images", "statement": "For every value of the parameters, the fit statistic of a joint fit is the sum of the statistics that the images have by themselves, each with its model image drawn for its own description and its own part of the parameters (shared model as seen in that image, then its own functions); the deviates are those of the images one after the other.", "quantifier": "every model, number of images, images with and without functions of their own, parameter values, data", "why_tests_cant": "the part of the parameter vector that belongs to an image depends on all images before it; unit tests check the assembly for one or two literal vectors", "anchors": ["core/model_object_multimage.cpp:GetFitStatistic", "core/model_object_multimage.cpp:ComputeDeviates", "core/param_holder.cpp:ParameterHolder"]}
{"id": "C88", "title": "makemultimages draws each image with its own description and functions", "statement": "makemultimages saves one file per image, <root>_<number>.fits, with the model image for that image's description, the shared model as seen in that image and the functions of that image alone; it stops with status -1 if the number of parameters is not that of the functions or an image cannot be drawn.", "quantifier": "every model, number of images, description, functions of single images", "why_tests_cant": "the functions, block starts and parameters of an image are put together from two files in loops over blocks of any number", "anchors": ["core/makemultimages_main.cpp:main", "core/model_object_multimage.cpp:CreateAllModelImages", "core/add_functions.cpp:AddFunctions"]}
{"id": "C89", "title": "The image-info file multimfit saves can be read again", "statement": "The image-info file that multimfit writes after a fit has one block per image. Reading it with the reader of image-info files gives, for every image, the same data, mask, error and PSF files, sky, gain and read noise (to the precision printed), oversampled PSFs, scales and regions, and for every image after the first the fitted pixel scale, rotation, flux scale and centre, so that makemultimages or another fit can start from it.", "quantifier": "every number of images, every set of files and data properties, every vector of parameter values, with and without error estimates", "why_tests_cant": "two file formats, a printf and a scanf side, and loops over any number of images, PSFs and regions have to agree", "anchors": ["core/print_results_multi.cpp:SaveImageInfoParameters", "core/print_results_multi.cpp:PrintSingleImageInfoToStrings", "core/imageparams_file_parser.cpp:ReadImageParamsFile"]}
{"id": "C90", "title": "The configuration files multimfit saves for the single images describe those images", "statement": "After a joint fit multimfit writes one configuration file per image, named after the chosen root and the number of the image. Each can be read as a configuration file: it lists the functions shared by all images followed by those of that image, with their labels, options and fitted values (to the precision printed), and the centres are where that image shows them, in the coordinates of its full file. A model made from the file is then the model that was compared with that image.", "quantifier": "every number of images, every joint model, every vector of fitted values, every set of image sections and file names", "why_tests_cant": "a printf and a parser side, two orders of parameters and a coordinate transformation per image have to agree for any number of blocks, functions and images", "anchors": ["core/print_results_multi.cpp:SaveMultImageParameters", "core/model_object_multimage.cpp:GetParameterStringsForOneImage", "core/model_object.cpp:PrintModelParamsToStrings", "core/config_file_parser.cpp:ReadConfigFile"]}
{"id": "C91", "title": "The table of bootstrap results of a joint fit has a named column for every parameter", "statement": "The file of bootstrap results that multimfit writes has a header line and one line of values per iteration. The header names every parameter of the joint fit exactly once, in the order of the values: for every image after the first its pixel scale, rotation, flux scale and centre, then the parameters of the model and those of the single images. Each line has as many values as there are names; centres are in coordinates of the full files.", "quantifier": "every number of images, every joint model with and without functions of single images, every vector of values, every set of sections", "why_tests_cant": "two loops that build header and rows independently must agree for any number of images, blocks and functions", "anchors": ["core/model_object_multimage.cpp:PrintModelParamsHorizontalString", "core/model_object_multimage.cpp:GetParamHeader", "core/bootstrap_errors.cpp:BootstrapErrors", "core/model_object.cpp:GetParamHeader"]}
{"id": "C92", "title": "The spiral functions draw evenly spaced logarithmic arms", "statement": "For the extra functions LogSpiral, LogSpiral2, LogSpiral3, LogSpiralExp and LogSpiralGauss, in the plane of the inclined disc the brightness at each radius is greatest on m logarithmic spirals with the given pitch angle, evenly spaced in azimuth, one of which crosses the radius R_i at azimuth gamma, and nowhere else; it equals the documented radial profile there and falls off smoothly between them; the picture is unchanged by a turn of 1/m of a circle, every pixel (the centre too) has a value, and the profile has no jumps.", "quantifier": "every function of the five, every position of its parameters in the parameter vector, every parameter value with a non-zero pitch angle and an ellipticity other than 1, every point of the image", "why_tests_cant": "the claim compares the values at all points of the plane, including pairs of points arbitrarily close to each other, and for all real parameter values", "anchors": ["function_objects/func_logspiral.cpp: LogSpiral::Setup, CalculateIntensity, GetValue", "function_objects/func_logspiral2.cpp: LogSpiral2", "function_objects/func_logspiral3.cpp: LogSpiral3", "function_objects/func_logspiral_exp.cpp: LogSpiralExp", "function_objects/func_logspiral_gauss.cpp: LogSpiralGauss"]}
{"id": "C93", "title": "LogSpiralArc draws one arc where its parameters say", "statement": "The extra function LogSpiralArc draws, in the plane of a disc with position angle PA, one logarithmic spiral arc which passes through radius r_scale at the angle theta_max; there, and only there, the brightness is I_max; it falls off as a Gaussian of width sigma_r across the arc and as Gaussians of widths sigma_theta_ccw and sigma_theta_cw along it, and a change of PA turns the picture.", "quantifier": "every parameter vector and position of the function in it, every point of the image but the ray opposite to theta_max", "why_tests_cant": "the claim is about all points of the plane and all real angles, with wrap-around at 0 and 360 degrees", "anchors": ["function_objects/func_logspiral_arc.cpp: LogSpiralArc::Setup, CalculateIntensity, GetValue, GetStdAngle, GetThetaRel, GetThetaDiff"]}
{"id": "C94", "title": "SimpleCheckerboard draws a checkerboard", "statement": "The extra function SimpleCheckerboard draws, over the whole image, squares of 10 by 10 pixels which are in turn I_pos and 0: moving by 10 pixels along a row or a column always changes the colour, and the square that begins at the centre pixel is bright.", "quantifier": "every intensity, every centre, every point of the image on all sides of the centre", "why_tests_cant": "the claim is about all pixels at any distance from the centre, on both sides of it", "anchors": ["function_objects/func_simple-checkerboard.cpp: SimpleCheckerboard::Setup, GetValue"]}
{"id": "C95", "title": "The ring of N4608Disk has the amplitudes given, relative to the disc", "statement": "N4608Disk draws the sum of a BrokenExponential disc and an elliptical Gaussian ring. On the crest of the ring, the ring adds A_maj times I_0 to the disc at the ends of its major axis and A_min times I_0 at the ends of its minor axis, where I_0 is the central intensity of the disc; on both axes the ring falls off from its crest as a Gaussian of width sigma_r.", "quantifier": "all parameter values with ring ellipticity below 1 and positive ring radius, all centres, all positions of the parameters in the vector, subsampling on or off", "why_tests_cant": "A test compares the picture with numbers obtained from the same code; with amplitudes such that A_maj times I_0 is 1 the error is invisible.", "anchors": ["function_objects/func_n4608disk.cpp: N4608Disk::Setup, GetValue, SetSubsampling", "function_objects/func_gaussian-ring-az.cpp: GaussianRingAz::Setup, GetValue"]}
{"id": "C96", "title": "BrokenExponentialBar and GaussianExtraParams draw the profiles they name", "statement": "BrokenExponentialBar draws, at distance u along the bar and w across it, the broken exponential with the given central intensity, scale lengths, break radius and sharpness at |u| times a Gaussian of width sigma in w. GaussianExtraParams draws what Gaussian draws plus the floor set as optional parameter. With subsampling on, a pixel has the mean of the values at the centres of equal parts of it.", "quantifier": "all parameter values with nonzero sharpness, all centres and points, all floors, subsampling on or off", "why_tests_cant": "The profile has to hold at every point and for all parameters, in particular on both sides of the switch to the outer approximation; the floor must survive subsampling with any number of parts.", "anchors": ["function_objects/func_broken-exp-bar.cpp: BrokenExponentialBar::Setup, CalculateIntensity, GetValue, CalculateSubsamples", "function_objects/func_gauss_extraparams.cpp: GaussianExtraParams::Setup, CalculateIntensity, GetValue, CalculateSubsamples"]}
{"id": "C97", "title": "The two NGC 4762 discs draw their profile, whatever was drawn before", "statement": "EdgeOnDisk_n4762 draws, at distance r along the disc and z from its plane, I_0 times the profile that is flat inside r_b and falls off with scale length h2 outside it, times exp(-|z|/h_z). The values EdgeOnDisk_n4762v2 draws are determined by its parameters and the point, and do not depend on what the same object drew before.", "quantifier": "all parameter values, all centres and points, all sequences of two pictures drawn by one object", "why_tests_cant": "A test that draws one picture with one set of parameters sees one leftover value of the break radius; the dependence shows only between histories.", "anchors": ["function_objects/func_edge-on-disk_n4762.cpp: EdgeOnDiskN4762::Setup, CalculateIntensity, GetValue, CalculateSubsamples", "function_objects/func_edge-on-disk_n4762v2.cpp: EdgeOnDiskN4762v2::Setup, CalculateIntensity, GetValue"]}
{"id": "C98", "title": "TriaxBar3D draws the light of a Gaussian ellipsoid along the line of sight", "statement": "TriaxBar3D draws at each pixel the integral along the line of sight of a Gaussian ellipsoid with the given central density, width, axis ratios and orientation, over a range which contains most of the light whatever the width.", "quantifier": "all parameter values, all centres and points, all integrators (accurate to any given tolerance for the range)", "why_tests_cant": "Orientation and density must be right for every direction and point; the range of integration is sufficient for the widths used in tests and fails for others.", "anchors": ["function_objects/func_triaxbar3d.cpp: TriaxBar3D::Setup, GetValue, LuminosityDensity_TriaxBar", "function_objects/helper_funcs_3d.cpp: Compute3dObjectCoords, LumDensity_Gaussian"]}
{"id": "C99", "title": "BPBar3D uses its parameters for what they are named", "statement": "BPBar3D integrates along the line of sight the sum of a flat bar with broken-exponential profile and a box/peanut part with exponential profile of scale length h_bp whose scale height is largest, by the factor z_bp_max, at the distance r_bp_max from the centre along the bar, each taken from the parameter of that name.", "quantifier": "all parameter values with nonzero sharpness, all centres and points, all integrators", "why_tests_cant": "A test draws a picture and compares it with one drawn by the same code; exchanged parameters give a picture that looks like a bar as well.", "anchors": ["function_objects/func_bpbar3d.cpp: PARAM_LABELS, BPBar3D::Setup, GetValue, LuminosityDensity_BPBar3D, CalculateIntensity_BrokenExp, DoubleGaussian2D"]}
{"id": "C100", "title": "Profilefit takes the rows it is asked for", "statement": "Given a data file and the numbers of a first and a last row, counted from 1 as the help says, profilefit stores the numbers of those rows, in order: lines starting with # do not count as rows, a line of any length is one row, columns 1, 2 (and 3 for errors, 4 for the mask) of each row are used, a row with too few columns ends the program, every range with first <= last within the file is accepted, and nothing is written outside the arrays whatever the file contains.", "quantifier": "all files, all ranges of rows, with and without errors and mask, all conversions of words to numbers", "why_tests_cant": "A test reads a few small files; the claim is about lines of every length, every number and placement of comments and every range.", "anchors": ["profile_fitting/read_profile.cpp: CountDataLines, ReadDataFile", "profile_fitting/profilefit_main.cpp: main (GET THE DATA)"]}
{"id": "C101", "title": "Profilefit takes up PSF profiles of any length", "statement": "A PSF profile of any length is read completely, whatever the number of data points; for data in equal steps the model to be convolved is computed on the same grid, continued on both sides by as many steps as the PSF has points.", "quantifier": "all PSF files, all numbers of data points, all equally spaced x values, all PSF lengths", "why_tests_cant": "A test uses one PSF and one data file, the PSF the shorter of the two.", "anchors": ["profile_fitting/profilefit_main.cpp: main (Read in PSF profile)", "profile_fitting/model_object_1d.cpp: ModelObject1d::AddPSFVector1D", "profile_fitting/read_profile.cpp: CountDataLines, ReadDataFile"]}
{"id": "C102", "title": "Profiles are convolved with the PSF without wrapping around", "statement": "Convolving a profile with a PSF gives, at every point, the sum over the PSF divided by its total times the values of the profile displaced by the distance from the middle of the PSF, with 0 outside the profile; in profilefit no value outside the profile enters at the data points.", "quantifier": "all profiles, all PSFs with nonzero total, of all lengths, odd or even, the PSF also longer than the profile", "why_tests_cant": "A test convolves one profile with one PSF; wrap-around and off-by-one padding show only for some combinations of lengths and edges.", "anchors": ["profile_fitting/convolver1d.cpp: Convolver1D::DoFullSetup, ConvolveProfile, ShiftAndWrapPSF", "profile_fitting/model_object_1d.cpp: ModelObject1d::AddPSFVector1D, CreateModelImage"]}
{"id": "C103", "title": "Masked points of a profile count nothing, and bootstrap rounds use the points drawn", "statement": "In profilefit each point contributes its distance from the model in units of its error and masked points contribute 0, in both mask formats; in a bootstrap round each contribution is that of the point drawn. (The second part fails when a point is masked: memory behind the drawn indices is read.)", "quantifier": "all data, errors, masks of both formats, models and draws", "why_tests_cant": "A test compares a few deviates for one mask; reading a few integers behind an array usually goes unnoticed.", "anchors": ["profile_fitting/model_object_1d.cpp: ModelObject1d::AddErrorVector1D, AddMaskVector1D, FinalSetupForFitting, ComputeDeviates", "core/model_object.cpp: ModelObject::ApplyMask, MakeBootstrapSample"]}
