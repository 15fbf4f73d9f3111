# A Rocq model of imfit: design, trusted base, findings

## 1. How the model is organised

* `Base.v` – outcomes (`Ok v` / `Undef`: undefined behaviour is a separate outcome, never a default value), bounds-checked
  array reads and writes, counted loops.
* `Num.v` – the arithmetic used by the numeric code, as a record of operations (`Num T`).  Each numeric C++ function is
  transcribed **once**, over an arbitrary `Num T`, and is then read in two ways:
  * `NumR` – Coq's real numbers ("exact arithmetic"): for algebraic and analytic claims;
  * `NumF` – IEEE-754 binary64 (Flocq `BinarySingleNaN`, round to nearest even), with the C math library (`exp`, `log`,
    `pow`, `sin`, `cos`) as an arbitrary argument: for claims about NaN, infinities, comparisons and masks.
  Theorems that hold for *every* `Num T` need no statement about rounding at all.
* For each area X: `X_Model.v` (definitions only; each cites file:lines), `X_Spec.v` (independent, model-free meaning
  of the English property, where it is not directly readable), `X_Proof.v` (lemmas), and `Props_X.v` (theorem statements,
  `exact …`, `Print Assumptions`, and non-vacuity `Example`s).

Strings are Coq `string`s (8-bit characters).  Integers are unbounded `Z`/`nat` except where wrap-around is the point
(Mersenne Twister, `int` conversions).  External libraries (FFTW, GSL, NLopt, CFITSIO, libm, MINPACK-style linear algebra
where it is not itself modelled) are explicit arguments of the model functions.

## 2. Plan per property

| id | modelled | how it is proved |
|----|----------|------------------|
| C01 | `SplitString`, `SplitStringAdd`, `ChopComment` (find_first_of loop) | refinement to a one-pass "maximal runs" specification, induction on the string |
| C02 | `TrimWhitespace` | refutation for one-character strings; full equation for all others (`_partial`) |
| C03 | `GetPixelStartCoords`, `GetStartCoordsFromBracket`, `DetermineImageOffset` over strings, decimal numerals | round trip print/parse for all positive numbers and bracket-free names |
| C04 | `CLineParser`, `OptionObject` | induction over well-formed argument vectors |
| C05 | `VetConfigFile`, `ParseFunctionSection` with `Undef` outcomes | invariant over the line list; refutations for the accepted-but-crashing inputs |
| C06 | renderer of abstract models + the parser | round trip by induction on blocks/functions/parameters |
| C07 | `ReadConfigFile` with its persistent default argument | refutation + equality for the entry point that clears |
| C08 | block/offset loops of `ModelObject` | ownership function, induction on blocks |
| C09 | `ExtractImageParams`, `AssembleParamsForImage` | index-by-index characterisation |
| C10 | `CalculateOffset_X0Y0` over R | trigonometric algebra |
| C11 | multi-image loops | fold lemmas; buffer-size refutation for masks+bootstrap |
| C12–C14 | `SetupModelImage`, `CreateModelImage`, `GetSingleFunctionImage`, `GetModelImageVector`, oversampling scale state | index algebra, linearity of convolution, history refutation |
| C15–C17 | `Convolver` with the exact DFT (roots of unity over complex numbers) as FFT, real-to-complex half storage | convolution theorem proved from orthogonality of roots of unity; wrap-around analysis |
| C18 | `DownsampleAndReplace` on arrays with bounds checks | loop invariant; refutation for non-square |
| C19–C24 | image functions over R | real analysis, Coquelicot integrals for C23 |
| C25 | `PsfInterpolator_lanczos2/3`, bicubic (GSL's spline as argument), `PointSource`, `SetupPsfInterpolation` | index refutation (transposed) + symmetric and square cases, exact kernel sums |
| C26–C31 | mask/weight/statistic loops over any `Num T`; NaN cases over `NumF` | loop lemmas, real analysis for C31 |
| C32, C33 | `AIC_corrected`, `BIC`, `ConfidenceInterval` | algebra, rounding bounds, sorted lists |
| C34 | `mp_enorm` over R | loop invariant on three accumulators |
| C35 | MT19937 over `Z` with explicit masks | bit-level lemmas, bijectivity of tempering |
| C36, C37 | resampling loop with an arbitrary random stream; all of bootstrap_errors.cpp with arbitrary fits | invariants; refinement to an abstract series of rounds |
| C38–C40 | DE solver with arbitrary stream and objective | state invariants over generations |
| C41–C44 | `mpfit` outer/inner loops, `mp_fdjac2`, `mp_qrfac` and the rest of its linear algebra | invariants; Householder algebra |
| C64, C65 | `Par_Model`: threads, shared and private variables, static schedules | invariant per thread, ownership of locations, commutation; exhibited bad schedules |
| C59–C63 | the same model: `mp_qrsolv`, `mp_lmpar`, `mp_covar`, limits on the step, gradient test | exact linear algebra (QR, Givens, damping), invariants over the list of calls, totality for any arithmetic, a measure on the trust region |
| C45 | both NLopt front ends with NLopt as an arbitrary ask/answer program, dispatch, algorithm map | case analysis, contracts on the library |
| C46–C51, C58 | all of cdream (initialisation, proposals, acceptance, adaptation, outliers, Gelman–Rubin, chain files, resuming) with arbitrary generator, GSL and likelihood | one invariant over generations; totality proof; round trip of files |
| C56 | mean and standard deviation of samples | sums over R |
| C57 | `AdjustParametersForImage`, `SetImageParameters`, `Setup` of 24 classes | frame algebra per class |
| C52–C55 | coordinates, generalised radius, image-description parser, memory estimate | algebra / parsing lemmas |
| C66–C68 | building a model from names, labels and optional parameters; saving and tabulating parameters with printf's conversions as arguments | round trip text/parser, index algebra over functions and sets |
| C69, C70 | the option tables of the five programs over the modelled command-line parser | meaning of each option stated on the argument list, one theorem per program by a table-driven invariant; refutations |
| C71, C72 | the path from command line and files to the model object | case analysis over outcomes against a declarative sheet of what is wanted; refutations |
| C73–C75 | the path from the model object to the solver and from the solver to the files | index algebra over blocks; the model object is a function of the last evaluation (invariant over any dialogue and bootstrap); composition with C67; refutations |
| C76–C78 | the program makeimage from its arguments to the files it leaves | composition of the option, building, convolution, image and flux theorems against a declarative list of products; refutations by computation |
| C79 | imfit's parameter file given to makeimage | composition of C67, C74 and C76: the lines written describe a model of the same shape, whose images are those of C76 |
| C80–C84 | the 3D image functions with the integrator as an argument, and FlatBar (`Los_Model`) | the luminosity density is stated with vectors and axes; integrability and continuity (Coquelicot), error propagation through the integral, substitution for scaling; refutations with explicit bars |
| C85–C88 | multimfit and makemultimages between their input files and the solver or the saved images (`Multi_Model`) | the joint vector is stated as descriptions, shared blocks, own blocks; what an image sees is a similarity applied to centres; one lemma on the assembled parameters, from which statistic, deviates, images and sections follow; reads past the end exhibited for every such input |
| C89 | writing the image-info file after a joint fit (`Multi_Model`) and reading it again (`ImgPar_Model`) | the text written is shown to say the entries of each image (`FileSaysI`), after which the reading theorem of C54 applies; lines are followed through `PrintToString`; undefined conversion and lost entries exhibited |
| C90 | the configuration file saved for each image of a joint fit (`Multi_Model`) and its reading (`Config_Model`) | what an image shows (`view`, from C87) is printed by the routines of C67; their round-trip lemmas then apply to every image; values left in the scale of the reference image exhibited |
| C91 | header and rows of the bootstrap file of a joint fit (`Multi_Model`) | both texts split into words; the loops are those of C68 continued from another line and over a longer vector; extra and missing columns exhibited for every such input |
| C92 | `Setup`, `CalculateIntensity`, `GetValue` of the five LogSpiral functions (`Spiral_Model`), exact arithmetic | the frame and `atan2` are inverted at polar coordinates of the disc up to whole turns, which an integer number of arms absorbs; equality on the arms from cos x = 1; tear for half an arm and jump of LogSpiral3 shown directly |
| C93 | func_logspiral_arc.cpp (`Arc_Model`), exact arithmetic | the angle found is the true one up to whole turns and within one turn, so three cases settle both reductions of angles; face-on discs only, since the code measures the angle on the image; PA without effect and wrong radius for negative theta_max shown for all such inputs |
| C94 | func_simple-checkerboard.cpp (`Board_Model`), exact arithmetic | floor of the offset is the pixel number for all points of a pixel; division with rounding towards 0 compared with division with rounding down, equal only on one side of the centre |
| C95 | func_n4608disk.cpp (`Compound_Model`), on top of `Func_Model`, exact arithmetic | the two objects Setup makes are the models of the two functions; evaluated on the crest of the ring at the ends of both axes |
| C96 | func_broken-exp-bar.cpp, func_gauss_extraparams.cpp (`Extra_Model`), exact arithmetic | the frame is inverted at a point given by its distances along and across; profile from the lemma for BrokenExponential (C24); floor taken out of the mean over a pixel |
| C97 | func_edge-on-disk_n4762.cpp, func_edge-on-disk_n4762v2.cpp (`Extra_Model`), exact arithmetic; the member r_b of the second is explicit state, unwritten in a new object | first: as C96; second: Setup of a new object reads the unwritten member; two pictures in a row with different last points shown to differ by injectivity of exp and ln |
| C98 | func_triaxbar3d.cpp (`Bar3_Model`) on top of `Los_Model`, exact arithmetic, the integrator an argument | the integrand is the ellipsoid at the vector of the point (frame lemma for Compute3dObjectCoords); missed light from bounds of the integrand by constants |
| C99 | func_bpbar3d.cpp with its parameter names (`Bar3_Model`), exact arithmetic, the integrator an argument | the integrand in terms of the parameters looked up by name; exchange of names shown by the density at the centre, which must not depend on h_bp |
| C100 | read_profile.cpp and the checks of rows in profilefit_main.cpp (`Profile_Model`); successive fgets calls as a function of the text; words to numbers an argument | the stored strings correspond to the lines (induction over the text); the loop split into rows before, within and after the range; words by C01 |
| C101 | reading of the PSF file in profilefit_main.cpp, x values of AddPSFVector1D (`Psf1d_Model`), exact arithmetic | from the loop lemmas of C100; the grid by splitting the sequence of indices |
| C102 | convolver1d.cpp (`Conv1d_Model`), exact arithmetic, FFTW the exact transform | one row of the two-dimensional transform of C15; wrapped indices as there |
| C103 | weights, masks and deviates of model_object_1d.cpp (`Dev1d_Model`), without CheckWeightVector; the drawn indices are arbitrary | loop invariant; with a masked point the loop reaches the first index that was not drawn |

Properties the code violates get a `…_refuted` theorem with a concrete witness plus the strongest true conditional version.

## 3. Trusted base

* Coq 8.16.1's kernel (and `vm_compute` as part of it).
* Axioms: only those of Coq's standard library that come with `Reals` (`ClassicalDedekindReals.sig_forall_dec`,
  `ClassicalDedekindReals.sig_not_dec`, `FunctionalExtensionality.functional_extensionality_dep`, and `Classical_Prop.classic`
  through some library lemmas); see section 6 for the list per theorem.
* My reading of the C++ text.  The code was never compiled or run here.

## 4. What is modelled and what is not

Modelled, function by function (each definition cites its lines):

| model file | code |
|---|---|
| `StrUtil_Model` | core/utilities.cpp: splitting, chopping comments, trimming, bracket coordinates, image offsets, parameter-line checks |
| `CmdLine_Model` | core/commandline_parser.cpp |
| `Config_Model` | core/config_file_parser.cpp (whole parser and its vetting), parts of core/utilities.cpp |
| `ImgPar_Model` | core/imageparams_file_parser.cpp |
| `Params_Model` | core/paramvector_processing.cpp, core/param_holder.cpp, the parameter layout and offset loops of core/model_object.cpp |
| `Image_Model` | core/model_object.cpp: image set-up, `CreateModelImage`, single-function images, extraction; core/oversampled_region.cpp |
| `Conv_Model` | core/convolver.cpp (with the exact DFT in place of FFTW) |
| `Downsample_Model` | core/downsample.cpp, region geometry of core/oversampled_region.cpp |
| `Interp_Model` | function_objects/psf_interpolators.cpp, func_pointsource.cpp |
| `Func_Model` | `Setup`/`GetValue`/sub-sampling/`AdjustParametersForImage` of 24 image-function classes, function_object.cpp, helper_funcs.cpp |
| `Fit_Model` | masks, weights, error models, chi^2/Cash/PMLR statistics and deviates, bootstrap resampling, final set-up (core/model_object.cpp, setup_model_object.cpp, model_object_multimage.cpp) |
| `Stats_Model` | core/statistics.cpp, core/mp_enorm.cpp |
| `MT_Model` | core/mersenne_twister.cpp |
| `Boot_Model` | core/bootstrap_errors.cpp |
| `LM_Model` | solvers/mpfit.cpp (argument checks, outer and inner loop, finite differences, `mp_qrfac`, `mp_qrsolv`, `mp_lmpar`, `mp_covar`, results), levmar_fit.cpp |
| `DE_Model` | solvers/DESolver.cpp, diff_evoln_fit.cpp |
| `Nlopt_Model` | solvers/nmsimplex_fit.cpp, nlopt_fit.cpp, dispatch_solver.cpp (NLopt is an argument) |
| `Mem_Model` | core/estimate_memory.cpp against the allocations of the convolver, the model object, mpfit and the regions |
| `Dream_Model` | cdream/*.cpp, the set-up of core/mcmc_main.cpp |
| `Par_Model` | the OpenMP loops of core/model_object.cpp and core/oversampled_region.cpp with threads sharing a memory, any interleaving (sequentially consistent, one access at a time); `FindTotalFluxes` |
| `Build_Model` | core/add_functions.cpp (class table of the default build, `AddFunctions`, optional parameters), `AddFunction`, `SetupPsfInterpolation` and the parameter names of core/model_object.cpp |
| `Save_Model` | core/print_results.cpp (`PrintParameters`, `SaveParameters`, `SaveParameters2`), `PrintModelParamsToStrings`, `GetParamHeader`, `PrintToString`, `MakeOutputHeader` |
| `Table_Model` | lines and column headers of bootstrap and chain files |
| `Opt_Model` | option classes and `ProcessInput` of the five programs, `NotANumber`, `HandleConfigFileOptions`, makeimage's image size |
| `Start_Model` | core/getimages.cpp, setup_model_object.cpp, psf_oversampling_info.cpp, store_psf_oversampling.cpp and the main flow of imfit and imfit-mcmc up to the fit |
| `Finish_Model` | core/imfit_main.cpp 252-520 and mcmc_main.cpp 251-400 from the model object to the solver, bootstrap and the files written; core/print_results.cpp; `GetModelImageVector`, `GetResidualImageVector`, `GetWeightImageVector`. Solvers are arbitrary finite dialogues (questions for the statistic or the deviates); the computation of model images is an argument |
| `Make_Model` | core/makeimage_main.cpp main and `DetermineFluxes`, `PrepareImageComments`, setup_model_object.cpp `SetupModelObject` without data, from the arguments to the images and tables left behind. Left out: messages, the printed pixels of --printimage, measured time; cfitsio and fopen succeed; images by one thread |
| `Head_Spec`, `Head_Proof` | no code of its own: a second table, of the parameter names as the documentation lists them, against which the names of `Build_Model` (C66) and the printed model description with limits (C67) are proved |
| `Chain_Spec`, `Chain_Proof`, `Chain_Fit`, `Chain_Read` | no code of their own: `Finish_Model` (or `Save_Model`), then `Config_Model`'s reader, then `Make_Model`; `Chain_Read` is an exact reader of numerals that shows the assumption on strtod can be met |
| `Los_Model` | func_expdisk3d, func_brokenexpdisk3d, func_gaussianring3d, func_ferrersbar3d, func_peanut_dattathri, helper_funcs_3d.cpp `Compute3dObjectCoords`, func_flatbar: Setup, GetValue, AdjustParametersForImage. `Integrate` (GSL) is an argument; fabs(atan(yp/xp)) is written with atan2 |
| `Multi_Model` | multimfit_main.cpp:403-667 and makemultimages_main.cpp:264-397 (function lists, joint model, start values, limits, images saved), model_object_multimage.cpp (AddModelObject, AddFunction, FinalModelSetup, FinalSetupForFitting, CreateAllModelImages, GetFitStatistic, ComputeDeviates, texts), utilities_multimfit.cpp, print_results_multi.cpp | Reading and saving images, messages, logging and memory estimates are left out; drawing one image is an argument; optional parameters of functions are left out, as both programs pass none. |
| `Spiral_Model` | func_logspiral, func_logspiral2, func_logspiral3, func_logspiral_exp, func_logspiral_gauss: Setup, CalculateIntensity, GetValue (CalculateSubsamples returns 1). tan is written sin/cos |
| `Arc_Model` | func_logspiral_arc.cpp: Setup, CalculateIntensity, GetValue and the angle helpers. fmod is written as one subtraction, M_PI as atan2(0, -1) |
| `Board_Model` | func_simple-checkerboard.cpp: Setup, GetValue. int is unbounded |
| `Compound_Model` | func_n4608disk.cpp: Setup, GetValue, SetSubsampling |
| `Extra_Model` | func_broken-exp-bar.cpp, func_gauss_extraparams.cpp (without SetExtraParams), func_edge-on-disk_n4762.cpp, func_edge-on-disk_n4762v2.cpp: Setup, CalculateIntensity, CalculateSubsamples, GetValue |
| `Bar3_Model` | func_triaxbar3d.cpp, func_bpbar3d.cpp: Setup, GetValue, integrands; PARAM_LABELS of the second. The integrator is an argument |
| `Profile_Model` | read_profile.cpp: CountDataLines, ReadDataFile; profilefit_main.cpp: options --x1, --x2 and checks of the range of rows. Opening files and allocation are not modelled |
| `Psf1d_Model` | profilefit_main.cpp: Read in PSF profile; model_object_1d.cpp: modelXValues of AddPSFVector1D |
| `Conv1d_Model` | convolver1d.cpp. FFTW is an argument |
| `Dev1d_Model` | AddErrorVector1D (sigmas), AddMaskVector1D, FinalSetupForFitting, ComputeDeviates of model_object_1d.cpp. CheckWeightVector and VetDataVector are not modelled |

Threads: all files but `Par_Model` run the OpenMP loops sequentially; C64 and C65 say for which functions that is right.
Not modelled: weak memory (C64 and C65 show that there is no race; a racy program has no meaning in C++),
FITS input and
output, the text of messages and timing, signal handling other than the stop flag, exhaustion of memory, the main programs
except where cited, GSL's integrator (the 3D functions take it as an argument), LogSpiralBrokenExp,
`extra/`, `oldstuff/`, `profile_fitting/` and `function_objects_1d/` except where cited, the Python scripts.

Simplifications are stated in the comment of each definition. The general ones: `int` is unbounded unless the comment says
otherwise; loops whose termination is not structural take fuel, and running out of it is the outcome `Fuel`, different from
every result; `abort()`/`exit()` is the outcome `Abort`; reading an element never written is `Undef`.

## 5. Findings

Each is a behaviour of the code found while proving; those with a theorem are proved about the model (name in brackets).

1. `DownsampleAndReplace` takes the number of rows from the number of columns (core/downsample.cpp:79) [C18].
2. `TrimWhitespace` erases one-character strings [C02].
3. `GetAllCoordsFromBracket` has a path without `return`; "*" as upper bound yields 0 [C03 family].
4. `DetermineImageOffset` can be −1 [C03 family].
5. `SplitString` returns the whole, untrimmed string when no delimiter follows the first token [C01].
6. Configuration files accepted by the vetting can make the parser read outside its vectors: trailing X0, FUNCTION
   without name, optional parameters before the first FUNCTION; a comment containing X0 is misread [C05].
7. `ReadConfigFile` (full version) does not clear its default argument: optional parameters leak between calls [C07].
8. `CreateModelImage` is not idempotent with a point source and an oversampled region [C14].
9. Image-description files: uninitialised line numbers in error reports, one-word flags rejected, bad limits kept, a glued
   comment read as limits, accepted lines that read outside a vector [C54].
10. `MakeBootstrapSample` does not terminate if no pixel has positive weight [C36].
11. DE: `genrand_real1` can return 1.0, which selects one past the end; no energy below 1e20 (or all parameters fixed)
    leaves the returned vector zero; limits exceeded by rounding [C38, C40].
12. NLopt front ends: one-sided limits dropped; evaluation counts accumulate over fits [C45].
13. Bootstrap summary: failed rounds count as zeros; the best fit is not corrected for the image offset; the summary for several
    images is undefined unless there are exactly two [C37].
14. Deviates of bootstrap-resampled masked multi-image data are written outside their buffer [C11].
15. Lanczos interpolation reads the PSF transposed, and outside it when it is wider than tall; all point sources share the
    method of the first [C25].
16. `CalculateOffset` status ignored; `TiltedSkyPlane` leaves slopes unset; sub-sample counts overflow for tiny scale
    lengths [C20].
17. The PSF image of an oversampled region is counted at one byte per pixel in the memory estimate [C55].
18. DREAM: uneven chain files (a crash between two of them) are read beyond their data; resumed centres include the image
    offset; 10-digit printing; NaN states pass the limits; with two chains pairs are not distinct and with one the program
    aborts; NaN variances count as converged, also
    those of a window of one generation; `int` overflow in `gelman_rubin` from generation 41452 with the default five
    chains; the last two generations are ignored; a resumed run with longer burn-in uses a negative count [C46–C50, C58].
19. mpfit: the reported best norm can be that of a rejected step; finite differences leave the limits when these are
    close together or by rounding [C42, C43]. The reported errors come from the differences before the last accepted step,
    and parameters blocked by a limit get error 0 [C61]. With discontinuous deviates and all free parameters at 0 no test
    ends the inner loop [C63].
20. `mp_enorm` drops tiny components when a huge one is present [C34].
21. `StandardDeviation` of one sample is NaN; AICc is infinite or NaN for nData = nParams + 1 [C32, C56].
22. `init_by_array` with an empty key reads outside it [C35].
23. Poisson-MLR with a NaN or infinite data pixel, even a masked one, gives a NaN statistic; masked pixels with non-finite
    model values give NaN [C26–C28 family].
24. PMLR deviates use `fabs`, the Cash statistic does not [C31 family].
25. Sersic's b_n is negative for 0.0415 < n < 0.0508 [C22].
26. `FlatExponential` misses a factor exp(r_b/h) in its large-radius branch [C24].
27. `EdgeOnDisk` scales its brightness with the pixel scale; three classes ignore the image description [C57].
28. `OversampledRegion::AddPSFVector` builds its interpolator from the un-normalised pixels [C25].
29. `AddPSFVector` after `SetupModelImage` returns −1 but leaves convolution enabled [C17].
30. Data race in the seven functions that integrate along the line of sight (ExponentialDisk3D, BrokenExponentialDisk3D,
    FerrersBar3D, GaussianRing3D, TriaxBar3D, BP/peanut): `GetValue` stores the address of a local array in a member shared by
    all threads before it integrates, so a pixel can get the value of another pixel or read a dead frame [C64].
31. Data race on the accelerators of the bicubic PSF interpolator [C64]; `EdgeOnDisk_n4762v2` writes members in `GetValue`.
32. `FindTotalFluxes` gives different sums for different numbers of threads and orders [C65]; it puts the component half a
    pixel away from the middle of the pixels it sums over, and leaves the entries of background components unset.
33. `PointSourceRot` loses its interpolation method when saved; its spellings "Bicubic" and "Lanczos2" give a null interpolator
    [C66, C67].
34. One-character labels are dropped; a label containing "X0" makes a saved file unreadable [C66, C67].
35. Saved values have 4 decimals (positions) or 6 digits (others), so a re-read model is not the fitted one [C67].
36. `PrintToString` with exactly 1024 characters gives a trailing NUL, above that it uses a consumed `va_list` [C67].
37. `--print-limits` writes "0,0" for unlimited parameters [C67].
38. Repeated options: the first value wins. `NotANumber` looks only at the first characters ("5x", gain "0", sky "--5" are
    accepted); NCOMBINED in a configuration file is not checked at all; large counts are truncated to 32 bits [C69, C70].
39. multimfit's statistic switches are read uninitialised [C69].
40. makeimage `--print-fluxes` with only `--refimage` works on an image of size 0 x 0 [C70].
41. imfit announces "model-based errors" while it uses the noise image when both are given; imfit-mcmc always refuses
    `--cashstat` [C71].
42. Oversampling regions: multimfit ignores the offset of an image section; PSFs are normalised even with `--no-normalize`;
    a shared oversampled PSF is normalised in place by the first region, so that the regions' interpolators differ; "*" as
    region bound aborts [C72].
43. imfit `--bootstrap`: the statistic, reduced statistic, AIC and BIC in the best-fit file are those of the last bootstrap
    resample, because the resampling is never switched off before the file is written [C74]. With `--fitstat-only
    --bootstrap` the saved images are those of the last refit's last trial [C75].
44. imfit-mcmc with one free parameter uses one chain and aborts in the first proposal [C73, C48].
45. The header of Markov-chain files shows limits of centres relative to the image section beside centres in whole-image
    coordinates [C73].

46. makeimage `--save-expanded` without `--psf` uses the uninitialised variables nColumns_psf and nRows_psf as margins and may
    read beyond the image [C76].
47. makeimage `--print-fluxes` for a model of backgrounds only prints 0/0 as fractions [C77].
48. makeimage compares only the total number of parameters: a configuration file with one parameter too few for one function
    and one too many for another is accepted, and the values go to the wrong functions [C78]; so do imfit and imfit-mcmc.
49. makeimage `--print-fluxes --refimage f` without other sizes ends in a failed assertion [C78, C70].
50. The major axes of `FerrersBar3D` and `DattathriPeanut3D` are at barPA, not at 90 + barPA from the line of nodes as the
    manual says [C80].
51. `GaussianRing3D` integrates over twice its radius: a ring of radius 0 is dark, a ring wide compared with its radius loses
    light [C82].
52. On an image with another pixel scale, 3D components change their brightness by the pixel scale [C83].
53. `FlatBar::Setup` multiplies I_0 by the pixel scaling instead of the intensity scale, unlike `AdjustParametersForImage` [C84].
54. multimfit reads its list of limits past the end as soon as an image has functions of its own (multimfit_main.cpp:659) [C85].
55. With two functions in one block of a single image multimfit and makemultimages read the block starts past their end [C88].
56. multimfit prints NCOMBINED, an int, with %g: undefined for every value other than 1 [C89].
57. The image-info file saved by multimfit leaves out weights, exposure times, the mask format, the kind of errors, limits and
    functions of single images, and writes the centres of further images relative to the fitted section [C89].
58. The configuration files multimfit saves for single images hold sizes, angles and intensities in the scale of the reference
    image [C90].
59. The bootstrap table of a joint fit has a value too many per row for one image, lacks the parameters of functions of single
    images although it names those of the first, and holds centres relative to the fitted sections [C91].
60. The spiral functions accept a number of arms which is not whole; their picture is then torn along the line of nodes [C92].
61. The profile of `LogSpiral3` jumps at the inner truncation radius: inside it lacks the scaling factor of the broken
    exponential outside [C92].
62. `LogSpiralArc` measures the angle on the image but the radius in the disc: PA has no effect on a face-on disc [C93].
63. `LogSpiralArc` with a negative theta_max draws its arc at another radius than r_scale [C93].
64. `SimpleCheckerboard` rounds towards 0: left of and below the centre squares are missing [C94].
65. `N4608Disk` passes an absolute minor-axis amplitude where `GaussianRingAz` expects a relative one: the ring has A_min A_maj I_0^2 there [C95].
66. `EdgeOnDisk_n4762v2` (in the repository, not compiled in) uses in Setup a break radius that only the drawing of a pixel sets: undefined the first time, left over from the last pixel drawn afterwards [C97].
67. `TriaxBar3D` integrates over a range proportional to the square of sigma: for sigma well below 1 pixel most of the light is missed [C98].
68. `BPBar3D` reads h_bp, r_bp_max and z_bp_max in another order than it names them: each is used as one of the others [C99].
69. `profilefit` stores the rest of a comment line longer than 1022 characters as a row of data [C100].
70. `profilefit` refuses a range of a single row, although its message asks for an end row >= the start row [C100].
71. `profilefit --x1 1` leaves out the first row and `--x2` with the number of rows is refused, although the help says 1 = first [C100].
72. `profilefit` refuses PSF profiles with more rows than the data: it compares with the wrong size [C101].
73. `profilefit --bootstrap` with a mask that masks a point reads behind the array of drawn indices in every round: the array has one entry per valid point, the loop runs over all points [C103].

Seen while reading, without a theorem: `vformat` is off by one at 1024 characters; the convolver normalises the caller's
PSF in place; `AddErrorVector` with a bad type keeps the flag set;
`EdgeOnDisk_n4762v2::Setup` uses an uninitialised variable; `TriaxBar3D` integrates to sigma^2; `GetMaskAndErrorImages` returns a mask on
failure; `FindTotalFluxes` leaves background fluxes unset; status −2 of `FinalSetupForFitting` is unreachable.

## 6. Assumptions per theorem

As printed by `Print Assumptions` for the theorems of MANIFEST.json.

**No axioms ("Closed under the global context")** (162 theorems):
`C103_masked_refuted`, `C101_longer_refuted`, `C101_read_partial`, `C100_long_refuted`, `C100_numbering_refuted`, `C100_rows`, `C100_safe`, `C100_single_refuted`, `C100_words`, `C01_chop_comment`, `C01_split_add_tokens`, `C01_split_leading_blank_refuted`, `C01_split_single`, `C01_split_tokens`, `C01_tokens_unique`, `C02_trim_partial`, `C02_trim_refuted`, `C02_trim_unique`, `C03_all_coords_star`, `C03_all_coords_undefined`, `C03_offset_extension_and_section`, `C03_offset_nonneg_refuted`, `C03_offset_plain`, `C03_offset_section`, `C04_command_line`, `C04_empty_value_refuted`, `C04_equals_in_value_refuted`, `C04_missing_value`, `C04_only_dashes`, `C04_unknown_rejected`, `C04_unknown_target_undefined`, `C05_comment_misread_refuted`, `C05_early_optional_refuted`, `C05_nameless_function_refuted`, `C05_starts_increasing`, `C05_starts_refuted`, `C05_trailing_X0_refuted`, `C05_vet_accepts`, `C05_vetted_parse_partial`, `C06_label_refuted`, `C06_round_trip`, `C06_round_trip_labels`, `C07_history_partial`, `C07_leak_refuted`, `C07_limited_version`, `C08_image_offsets`, `C08_labels`, `C08_layout`, `C09_assembly_function`, `C14_history_partial`, `C18_nonsquare_wide_refuted`, `C25_method_names`, `C35_int_range`, `C35_reference`, `C35_reproducible`, `C35_seed_array`, `C35_tempering`, `C37_all_succeeded_partial`, `C37_array`, `C37_matrix`, `C37_multi_refuted`, `C37_setup_failure`, `C37_summary`, `C40_distinct`, `C44_permutation`, `C45_bounds`, `C45_counts_refuted`, `C45_defined`, `C45_dispatch`, `C45_distinct`, `C45_names`, `C45_report`, `C45_selected`, `C45_stop`, `C45_unknown`, `C45_within`, `C46_limits_partial`, `C46_limits_resumed`, `C46_setup`, `C47_metropolis`, `C48_crossover`, `C48_one_chain_refuted`, `C48_pair`, `C48_proposals`, `C48_two_chains_refuted`, `C49_converged`, `C49_last_two_ignored`, `C49_overflow_refuted`, `C49_test`, `C50_files`, `C50_run_partial`, `C51_outliers`, `C54_bad_limits_refuted`, `C54_comment_refuted`, `C54_description_vector`, `C54_flag_refuted`, `C54_function_limits_refuted`, `C54_line_number_refuted`, `C54_round_trip_partial`, `C54_short_pair_refuted`, `C54_vetting`, `C55_convolver`, `C55_defined`, `C55_fit`, `C55_region_refuted`, `C55_regions`, `C58_burnin_refuted`, `C58_new`, `C58_new_start`, `C58_resumed`, `C62_safe`, `C64_history`, `C64_interpolator_refuted`, `C64_line_of_sight_refuted`, `C64_pixels_partial`, `C64_rows`, `C65_no_race`, `C65_sum_of_shares`, `C66_build`, `C66_documented`, `C66_interpolator`, `C66_known`, `C66_null_interpolator_refuted`, `C66_own_method_refuted`, `C67_label_refuted`, `C67_limits`, `C67_method_lost_refuted`, `C68_chain_header`, `C68_chain_line`, `C68_table`, `C69_first_value_wins`, `C69_high_byte_refuted`, `C69_mistakes`, `C69_multimfit_statistic_refuted`, `C69_options`, `C69_trailing_refuted`, `C69_wraps_refuted`, `C69_zero_gain_refuted`, `C70_fit_options`, `C70_flux_size_refuted`, `C70_makeimage_options`, `C70_makeimage_size`, `C70_ncombined_refuted`, `C71_announcement_partial`, `C71_announcement_refuted`, `C71_mcmc_cash_refuted`, `C71_start`, `C72_multimfit_refuted`, `C72_regions_partial`, `C73_imfit`, `C73_mcmc`, `C73_one_chain_refuted`, `C78_nothing`, `C85_local_functions_refuted`, `C85_start_partial`, `C85_undrawable`, `C88_two_local_refuted`, `C89_combined_refuted`, `C91_own_refuted`, `C91_sections_refuted`, `C91_single_refuted`, `C91_table_partial`

**`FunctionalExtensionality.functional_extensionality_dep`, `ClassicalDedekindReals.sig_forall_dec`** (8 theorems):
`C101_grid`, `C19_sub_pixels`, `C67_commented`, `C67_rebuild`, `C67_save`, `C77_fractions`, `C89_image_info_partial`, `C89_lost_refuted`

**`FunctionalExtensionality.functional_extensionality_dep`, `ClassicalDedekindReals.sig_forall_dec`, `ClassicalDedekindReals.sig_not_dec`** (3 theorems):
`C10_similarity`, `C80_frame`, `C99_meant`

**`Classical_Prop.classic`, `FunctionalExtensionality.functional_extensionality_dep`, `ClassicalDedekindReals.sig_forall_dec`, `ClassicalDedekindReals.sig_not_dec`** (219 theorems):
`C103_bootstrap_partial`, `C103_deviates`, `C102_convolution`, `C102_no_edges`, `C09_assembly`, `C09_bad_scale_refuted`, `C10_code`, `C11_bootstrap_refuted`, `C11_deviates_partial`, `C11_statistic`, `C11_statistic_exact`, `C12_image`, `C12_no_blur`, `C13_sum`, `C14_later_evaluations`, `C14_point_source_refuted`, `C15_convolution`, `C16_delta`, `C16_flux`, `C16_linear`, `C17_add`, `C17_nonfinite`, `C17_normalised`, `C18_downsample_partial`, `C18_nonsquare_tall_refuted`, `C19_mean`, `C20_defined`, `C20_far`, `C20_tiny_refuted`, `C21_degree`, `C21_ellipses_cover`, `C21_half_turn`, `C21_isophotes`, `C21_position_angle`, `C22_advertised`, `C22_brightest`, `C22_e_folding`, `C22_king_edge`, `C22_monotone`, `C22_small_index_refuted`, `C23_exponential`, `C23_gaussian`, `C24_broken_exponential`, `C24_double_broken`, `C24_edge_on_disk`, `C24_flat_exponential`, `C24_flat_refuted`, `C24_outer_slope`, `C25_bicubic`, `C25_lanczos_formula`, `C25_lanczos_partial`, `C25_lanczos_square`, `C25_lanczos_tall`, `C25_no_psf`, `C25_outside`, `C25_point_source`, `C25_region_pixels`, `C25_shared_method`, `C25_transposed_refuted`, `C25_wide_refuted`, `C26_masks`, `C26_other_types`, `C26_weights`, `C27_masked_pixels_partial`, `C27_overflow_refuted`, `C27_pmlr_nan`, `C27_pmlr_nan_refuted`, `C28_chi_squared`, `C28_negative_data_refuted`, `C28_poisson_partial`, `C29_error_images`, `C30_setup_failure`, `C30_setup_success`, `C30_setup_total`, `C31_cash`, `C31_statistic`, `C31_terms`, `C32_bic_penalty`, `C32_formulas`, `C32_zero_denominator`, `C33_interval`, `C34_exact_refuted`, `C34_norm`, `C34_norm_bounds`, `C35_real_range`, `C36_after_setup`, `C36_no_valid_pixel`, `C36_resample`, `C37_best_fit_refuted`, `C37_failed_run_refuted`, `C37_failures_refuted`, `C37_offset_once`, `C38_fixed`, `C38_limits_partial`, `C38_missing_limits`, `C38_no_energy_refuted`, `C38_rounding_refuted`, `C39_best`, `C39_best_exact`, `C39_monotone`, `C40_index_partial`, `C40_index_refuted`, `C40_memory_safe_partial`, `C40_run_refuted`, `C41_codes`, `C41_limits`, `C41_rejected`, `C42_bestnorm_refuted`, `C42_not_worse`, `C42_reported_partial`, `C42_sum_of_squares`, `C43_derivatives_partial`, `C43_narrow_refuted`, `C43_rounding_refuted`, `C44_gradient`, `C44_qr`, `C45_one_sided_refuted`, `C46_binary64`, `C46_exact`, `C46_nan_refuted`, `C49_diagnostic_partial`, `C49_nan_refuted`, `C49_run`, `C50_crash_refuted`, `C50_offset_refuted`, `C52_model_image`, `C52_region_image`, `C52_subpixel_coords`, `C53_exponential`, `C53_level`, `C53_radius`, `C53_value`, `C56_mean_sd`, `C56_sd_affine`, `C56_single_sample_refuted`, `C57_adjusted_parameters`, `C57_description`, `C57_edge_on_disk_refuted`, `C57_ignored_refuted`, `C59_step`, `C60_gradient`, `C61_errors`, `C63_ends_partial`, `C65_binary64_order_refuted`, `C65_fluxes`, `C72_shared_psf_refuted`, `C73_header_refuted`, `C74_bootstrap_refuted`, `C74_exit`, `C74_file`, `C74_numbers_partial`, `C74_stat_only`, `C75_images`, `C75_stat_only_refuted`, `C76_expanded_refuted`, `C76_run_partial`, `C76_run_partial`, `C77_background_refuted`, `C78_counts_refuted`, `C78_refimage_refuted`, `C78_status`, `C79_fit_partial`, `C79_saved_partial`, `C80_bar_axis_refuted`, `C80_bar_partial`, `C80_projection`, `C81_face_on`, `C81_half_turn`, `C81_mirror`, `C81_round`, `C82_disc`, `C82_ferrers`, `C82_ferrers_outside`, `C82_ring_refuted`, `C83_adjusted`, `C83_description_partial`, `C83_scale_refuted`, `C84_adjusted_refuted`, `C84_half_turn`, `C84_intensity_refuted`, `C84_mirror`, `C84_profile_partial`, `C84_subsampling`, `C86_sections`, `C87_deviates`, `C87_statistic`, `C88_images_partial`, `C89_sections_refuted`, `C90_files_partial`, `C90_scale_refuted`, `C92_arms`, `C92_brightness`, `C92_centre`, `C92_edge_refuted`, `C92_everywhere`, `C92_far`, `C92_peak`, `C92_seam_refuted`, `C92_turn`, `C93_PA_refuted`, `C93_arc_partial`, `C93_negative_refuted`, `C93_peak_partial`, `C94_board_partial`, `C94_dark_refuted`, `C94_left_refuted`, `C95_major_partial`, `C95_minor_refuted`, `C96_bar`, `C96_floor`, `C96_subsampling`, `C97_disc`, `C97_first_refuted`, `C97_history_refuted`, `C97_subsampling`, `C98_column_partial`, `C98_reach_refuted`, `C99_density_partial`, `C99_names_refuted`

