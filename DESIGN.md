# Formal model of kabasset/Raster (Litl) in Rocq

Everything is under `rocq/theories` (logical name `Verif`), Coq 8.16.1, standard library, and Flocq for the
floating-point part (`Float*.v`, `PropsFloat.v`).
The code under `/repo` was read, not built nor run: the tie between the model and the code is the
`file: lines` citation in the comment above each definition.

## Organisation

* `Res.v` - outcomes of C++ expressions: `Ok v`, `Throw e` (a C++ exception), `UB` (undefined behaviour:
  out-of-bounds access, signed overflow, division by zero...). Memory blocks are lists; access out of the
  list is `UB`, never a default value.
* `*Model.v` - the model, function by function, no proofs. Each definition cites its source.
* `*Spec.v` / definitions at the top of `Props*.v` - small independent specifications (membership of a box,
  row-major rank, sums over windows, sortedness...).
* `*Proofs.v` - lemmas.
* `Props*.v` - property theorems only: each closed by `exact`, followed by `Print Assumptions` and by an
  `Example` showing that a concrete non-trivial case meets the hypotheses.

Names ending with `_refuted` prove that the code, as modelled, violates the property for a concrete input;
names ending with `_partial` prove the property under the extra hypotheses stated.

## General modelling decisions

* `Index` (`long`) and pixel values are unbounded `Z` (or an abstract type when the operation is generic),
  except in C02 (and where stated), where every 64-bit operation is checked. Unsigned wrap-around
  (`std::size_t` mixed with `long`) is written explicitly (`mod 2^64`) at the places where the code mixes both.
* Pixels of bounded width, integral promotions, wraparounds and signed overflow are the subject of `WidthModel.v` (C72, C73).
* `double` values are exact rationals `Q`, without rounding, except in `FloatModel.v` and `BallFloatModel.v` (C64 to C67, and the theorems of `PropsBall.v` for C30) where they are IEEE 754
  binary64 numbers, with rounding to nearest, overflow, subnormals and NaN.
* `Position<N>` is `list Z`; the dimension is the length of the list. Where the fixed-dimension and the
  run-time-dimension (`N = -1`) instances differ, both are modelled.
* A raster is a shape and a list of pixels in memory order.
* Loops are structural recursions or fuel-indexed iterations. When fuel is used, theorems state that a
  sufficient amount exists (termination), or, for non-termination, that no amount suffices.
* Library calls (`std::nth_element`, `std::sort`, `malloc`, random engines, the clock, FFTW) are not implemented:
  theorems quantify over all results allowed by the C++ standard (any permutation meeting the postcondition of
  `nth_element`, any block address, any engine, any monotone clock...).

## Trusted base

* Coq's kernel (8.16.1) and its standard library. `Print Assumptions` prints `Closed under the global context` under
  every property theorem but those of C64 to C67 (`PropsFloat.v`), C79 and C80 (`PropsFourier.v`), C83 (`PropsDerivative.v`), C86 (`PropsQuantile.v`), C87 (`PropsFloatKernel.v`), C88 and C89 (`PropsFloatNoise.v`), C91 (`PropsFloatSum.v`), C95 (`PropsFourierIdentity.v`), C96 (`PropsNan.v`), C98 (`PropsFlatDft.v`), C99 (`PropsMath.v`), C100 (`PropsAccuracy.v`), C101 (`PropsFloatLimits.v`), C103 (`PropsTypedMedian.v`), C104 (`PropsTiled.v`), C106 (`PropsHsv.v`), C107 (`PropsMad.v`), C113 (`PropsTypedKernel.v`), C114 (`PropsFloatSampling.v`), of `PropsBall.v` and `C69_double_bounds_partial`: these rely on the construction of real numbers of the standard
  library, and `Print Assumptions` prints at most four axioms of the standard library for each of them:
  `ClassicalDedekindReals.sig_forall_dec`, `ClassicalDedekindReals.sig_not_dec`, `Classical_Prop.classic` and
  `FunctionalExtensionality.functional_extensionality_dep`. Flocq provides the computable binary64 operations of the model and
  lemmas on rounding, and no axiom. No axiom, parameter, section-less variable, functor or module type is
  declared. A whole-library check (`coqchk -o`) also lists the seven axioms of `Coq.ssr.ssrunder.Under_rel`
  (`Under_rel`, `Under_rel_from_rel`, `Under_relE`, `Over_rel`, `over_rel`, `over_rel_done`, `under_rel_done`) and the fields of
  `Coq.Reals.Rdefinitions.RbaseSymbolsImpl` and `RinvImpl` (`R`, `Rabst`, `Rrepr`, `Rplus`, `Rmult`, `Ropp`, `Rlt`, `Rinv` and their
  specifications). Both are modules of the standard library sealed by a module type: their fields are defined there, and only appear opaque.
* The reading of the C++ sources recorded in the citations: `/repo` was neither built nor run. Besides reading, two things tie the
  model to the code: the seeded mutations (`seeded/LOG.jsonl`), and `Conformance.v`, where the unit tests of the library with explicit
  inputs and outputs are evaluated on the model. The model agrees with all of them but two, which contradict the code at this commit:
  `composition_test` of `SeparableKernel_test.cpp` (finding C38) and `data_sample_test` of `Sampling_test.cpp` (finding C29).
* The statements in `Props*.v` and the definitions of the `*Spec.v` files they use.

### What is modelled

| Code | Model |
|------|-------|
| `LitlRaster/Vector.h`, parts of `LitlTypes/TypeUtils.h` (clamp, limits, floor), `LitlTypes/Segment.h` | `VecModel.v`, `TypesModel.v` |
| `LitlRaster/Box.h`, `BoxIterator.h` | `BoxModel.v` |
| `LitlRaster/Raster.h`, `impl/Raster.hpp` (index, access, views, constructors) | `RasterModel.v`, `LoopModel.v` |
| `LitlRaster/Subraster.h`, `SubrasterIterator.h` | `SubrasterModel.v` |
| `LitlContainer/ContiguousContainer.h`, `DataContainer.h` (access, equality, text output) | `ContainerModel.v` |
| `LitlContainer/Arithmetic.h`, `Math.h`, the modifiers of `DataContainer.h` (fill, range, linspace, generate, apply, min, max) | `ArithModel.v` |
| `LitlContainer/DataDistribution.h` | `DistModel.v` |
| `LitlContainer/AlignedBuffer.h` | `AlignedModel.v` (blocks and owners), `AlignedDataModel.v` (contents of the blocks) |
| `LitlRaster/Sampling.h` | `SamplingModel.v` |
| `LitlRaster/Ball.h`, `BallIterator.h` | `BallModel.v`, `BallFloatModel.v` (double radius; `std::pow` is any function right to the last digit) |
| `LitlTransforms/LineKernel.h`, `SeparableKernel.h`, `Kernel.h`, `MedianFilter.h` | `LineKernelModel.v`, `SeparableModel.v`, `KernelModel.v`, `MedianModel.v` |
| `LitlTransforms/InterpolationMethods.h`, `Interpolation.h` | `InterpModel.v` |
| `LitlTransforms/Dft.h`, `DftPlan.h`, `DftMemory.h` (shapes, buffers, chains, documented filter; FFTW is a parameter, its documentation is in `FourierSpec.v`) | `DftModel.v` |
| The same files: lifetimes of plans, FFTW plans and buffers, over the aligned buffers | `PlanModel.v` |
| `DftPlan.h`: `transform` in several threads | `PlanThreadModel.v` |
| `DftMemory.h`: `FftwAllocator` up to the end of the program | `ExitModel.v` |
| `DftMemory.h`, `DftPlan.h`: creation, execution, use and destruction of plans in several threads | `PlanWorkModel.v` |
| Derivation in Fourier domain (`doc/dft.dox`, `LitlDemoDft_test.cpp`) | `DerivativeModel.v` |
| Debug prints of `SeparableKernel.h` and `Convolution.h` | `PrintModel.v` (the models of correlations leave them out) |
| Types of partial sums in `LineKernel.h` and `SeparableKernel.h` | `MixedModel.v`; integers of bounded width, exact rationals for floating-point pixels; floating-point kernels with rounding are in `FloatKernelModel.v` |
| `quantile()`, `median()` and `mad()` of `DataDistribution<double>` | `QuantileModel.v` (values already sorted), `DistFloatModel.v` (any state) |
| `LineKernel<double>`, `correlateAlong` and `correlateAlongSeqTo` for `double` | `FloatKernelModel.v`; the map from axes to line kernels is replaced with the list of the kernels in order (see C37); `Kernel` for `double` is in `TypedKernelModel.v`; `Convolution.h` is undefined for `double` (C84) |
| `ImpulseNoise` with probabilities of type `double`; noises of another type than the elements | `FloatNoiseModel.v`; `std::discrete_distribution` is abstracted by its weights and arbitrary draws; not modelled: conversions to unsigned integers of 64 bits above 2^63, and between floating-point types |
| `Box::Iterator`, `BallTraits::Iterator` and `Subraster::Iterator` as objects: references, copies, destruction | `IterModel.v`; not modelled: moves of regions to other addresses other than destruction and creation |
| `LitlRun/StepperPipeline.h`, `Chronometer.h` | `PipelineModel.v`, `ChronoModel.v` |
| `LitlContainer/Random.h` (Poisson and impulse noises) | `RandomModel.v` |
| `LitlContainer/Random.h` (uniform and Gaussian noises), limits of `LitlTypes/TypeUtils.h` | `LimitsModel.v` |
| `LitlRun/IterationBenchmark.h`, `.cpp` (loops) | `BenchModel.v` |
| `LitlIo/Fits.h` (CFITSIO is a parameter) | `FitsModel.v` |
| `LitlTransforms/Convolution.h` (`Kernel1d` in two dimensions) | `Conv2dModel.v` |
| `InterpolationMethods.h`, `range` and `linspace` of `DataContainer.h`, `mean` of `DataDistribution.h`, for doubles with rounding | `FloatModel.v` |
| `LitlRaster/Matrix.h` (storage; Eigen is a parameter) | `MatrixModel.v` |
| `LitlTypes/Exceptions.h`, `serialize` of `LitlTypes/SeqUtils.h` | `TextModel.v` |
| `LitlTypes/SeqUtils.h` (orders of evaluation) | `SeqModel.v` |
| `LitlRun/ProgramOptions.h` (Boost's variable store included, its lexer excluded) | `OptionsModel.v` |
| Pixel-wise operators, `range` and scalars over integers of bounded width (`Arithmetic.h`, `DataContainer.h`) | `WidthModel.v` |
| Loops over the pixels of a raster (`doc/primer.dox`, `LitlDemoBasics_test.cpp`) | `TraverseModel.v` |
| Formulae of containers and their replacement by `generate` and `apply` (`doc/pixelwise.dox`, `DataContainer.h`, `Arithmetic.h`) | `ExprModel.v` |
| Interrupted pixel-wise functions and operators (`DataContainer.h`, `Arithmetic.h`, `Math.h`) | `ThrowModel.v` |
| Extrema of doubles which may be NaN (`DataContainer.h`) | `NanModel.v` |
| Statistics of integers of bounded width (`DataDistribution.h`, `MedianFilter.h`) | `WidthDistModel.v` |
| Transform plans over buffers of the caller, in place or not (`DftPlan.h`, `Dft.h`, `DftMemory.h`) | `FlatDftModel.v` |
| Transforms of any shape, null FFTW plans (`Dft.h`, `DftPlan.h`, `DftMemory.h`) | `DftShapeModel.v` |
| Mathematical functions of containers of integers (`Math.h`) | `MathModel.v` |
| Limits of floating-point types, default uniform noise (`TypeUtils.h`, `Random.h`) | `FloatLimitsModel.v` |
| Images with several channels, RGB to HSV (`doc/channels.dox`, `LitlDemoChannels_test.cpp`) | `ChannelModel.v`, `HsvModel.v` (doubles) |
| Ownership: copies, moves and assignments of `Raster.h`, `Holders.h` (`StdHolder` of a vector, `PtrHolder`) | `OwnModel.v` |
| Ownership of `ArrRaster` (`StdHolder` of an array), with assignments to oneself | `ArrOwnModel.v` |
| `MedianFilter.h` for any types of pixels | `TypedMedianModel.v` |
| modifiers of `Box.h` and `Ball.h` with aliased operands; `MedianFilter.h` and `LineKernel.h` in place | `RegionAliasModel.v`, `InPlaceModel.v` |
| `Interpolation.h`: lifetimes and references | `DecoratorModel.v` |
| `StepperPipeline.h`: steps which call `get` or `reset` | `NestedModel.v` |
| `StepperPipeline.h`: threads | `PipeThreadModel.v` |
| `StepperPipeline.h`: copies, moves and assignments of pipelines | `PipeCopyModel.v` |
| `StepperPipeline.h` used by several threads, with exceptions | `PipeThrowModel.v` |
| `Kernel.h`: types of the kernel and pixels | `TypedKernelModel.v` |
| `Sampling.h`: `AxisSampling<double>` | `FloatSamplingModel.v` |
| `Kernel.h`: `correlateTo` in place | `InPlaceKernelModel.v` |
| `ContiguousContainer.h`: `operator[]`, `front`, `back`, `emtpy` | `ElementModel.v` |
| `MedianFilter.h` applied on several regions, by several threads or in place | `TiledModel.v` |
| Threads of the caller on subrasters, slices and sections of one raster | `TaskModel.v` |

### What is not modelled

PNG and TIFF files (not implemented), CFITSIO itself (parameter), the algorithms and rounding of FFTW (C79, C80 and C83 rely on its documentation, in exact arithmetic), floating-point
rounding (but for `FloatModel.v`), time spent, `Mask.h`, `StructuringElement.h` and `Affinity.h` (they do not compile), the numerical content of the
determinants and inverses (Eigen), the lexer of Boost.ProgramOptions, the random engines and distributions of the standard library
(parameters), copies and assignments of pixels which throw, concurrency but for threads of the caller on regions of one raster (C104, C105), on pipelines (C112) and on DFT plans (C118, C120); the library starts none.

## Findings

Behaviors of the code which contradict the listed properties or the documentation. Those with a theorem are proved about the model.

| Finding | Theorem |
|---------|---------|
| `size()` of a raster with a zero length may overflow | `C02_empty_raster_overflows` |
| Iterating over an empty box never ends (the end position is not reached) | `C04_empty_iteration_refuted` |
| `Box::size()` of boxes with an even number of negative lengths is positive | `C05_size_refuted` |
| Unary minus on a box gives front > back | `C06_minus_refuted` |
| Raster constructors from a list or range read the shape after it was moved from, hence throw for run-time dimension | `C11_runtime_refuted` |
| A raster over a `std::array`, of a shape without pixel, is accepted and iterates over the elements of the array | `C11_array_refuted` |
| `section()` of run-time dimension rasters is undefined | `C12_runtime_section_refuted` |
| In-place operators with a scalar which aliases an element use the updated value afterwards | `C16_alias_refuted` |
| `box -= box.front()` does not move the back, `box += box.front()` moves it twice | `C108_refuted`, `C108_own_front` |
| Median filters and line kernels in place read pixels which are already filtered | `C109_refuted`, `C109_line_refuted` |
| ND kernels in place read pixels which are already modified if the window has a negative offset or the extrapolation is periodic | `C115_backward_refuted`, `C115_rows_refuted`, `C115_periodic_refuted` |
| ND kernels larger than the raster write out of it or do not end, except some of them | `C116_outside_refuted`, `C116_beyond_refuted`, `C116_overwritten_refuted`, `C116_endless_refuted` |
| `interpolate<M>(extrapolate(raster))` keeps a reference to a temporary extrapolator: any use is undefined | `C110_refuted`, `C110_reference_refuted` |
| Decorators of a raster which is moved refer to the raster left without pixels; with fixed dimension its shape is unchanged, so that in-domain reads are undefined | `C110_moved_refuted` |
| A step which calls `reset()` is then known as evaluated although its prerequisites are not; a step which asks for one which needs it recurses endlessly; asking for an evaluated step may evaluate those which its `doGet` asks for | `C111_refuted`, `C111_endless`, `C111_endless_value`, `C111_cached_refuted` |
| Pipelines are not thread-safe: races as soon as a step remains to be evaluated, and evaluations made twice | `C112_race`, `C112_throw_race`, `C112_twice`, `C112_refuted` |
| A plan and its `inverse()` share their buffers: executing them in parallel is a data race, although the documentation says that plan execution is thread-safe | `C118_inverse_refuted`, `C118_swap_refuted` |
| Static objects constructed before the first plan and which receive plans later, or whose destructor makes transforms, use FFTW after `fftw_cleanup()` | `C119_holder_refuted`, `C119_user_refuted`, `C119_users_refuted` |
| `FftwAllocator` is documented as a thread-safe singleton: two threads which create plans race on FFTW's global variables, and creating the inverse of a plan overwrites its buffers while another thread may execute it | `C120_planners_refuted`, `C120_inverse_refuted` |
| `Kernel` of integers on pixels of doubles: sums truncated at each step inside, pixels truncated in the borders; the response to a constant image is not constant | `C113_mixed_refuted` |
| `AxisSampling<double>`: the last value may be greater than back, or missing; repeated values; endless loop for more than 2^53 values; undefined default size | `C114_exceeds_refuted`, `C114_misses_refuted`, `C114_stuck_refuted`, `C114_endless_refuted`, `C114_default_refuted` |
| `operator++(int)` of the iterators of `AxisSampling` and `DataSamples` has no return statement (`Sampling.h` 42-45, 202-205): undefined behaviour | text only; no use of it is modelled |
| `a - V` builds the zero vector of dimension `a` | `C17_scalar_minus_vector_refuted` |
| Integer `linspace` with min > max is wrong (unsigned division); `range` has the same aliasing issue as C16 for its step | `C18_linspace_integer_refuted` |
| `minmax()` references the last greatest element while the documentation says the first one | `C20_minmax` |
| `median()` of an even number of values reads two references in an unspecified order with respect to the partial sorts | `C21_median_refuted` |
| `quantile()` swaps the weights of the neighbors | `C22_quantile_refuted` |
| `histogram()` writes past the end when a value equals the last bound | `C23_histogram_refuted` |
| `mean()` of integers with a negative sum is a huge positive value (unsigned division) | `C24_mean_integer_refuted` |
| `alignment()` overflows at address 2^63; non-power-of-two alignments are not rejected | `C25_alignment_refuted`, `C25_not_power_of_two_refuted` |
| Moving from, or assigning to, an owning `AlignedBuffer` leaks | `C27_move_refuted`, `C27_move_assign_refuted`, `C27_copy_assign_refuted` |
| Default `Sampling` overflows; sampling shapes of variable dimension write out of bounds | `C28_default_refuted`, `C28_variable_dimension_refuted` |
| `DataSamples` iteration ends after as many samples as elements, hence reads out of bounds; back is ignored | `C29_bounds_refuted`, `C29_back_refuted` |
| Iterating over a ball of radius at most -1 never ends | `C30_negative_radius_never_ends` |
| A ball of double radius may contain positions farther than the radius: the square is rounded | `C30_double_refuted` |
| `Vector::inf()` has the wrong sign and `isInf()` does not recognise it (hence `Box::whole()` is empty, and the default region of `MedianFilter::applyTo` is unusable) | `C31_inf_refuted`, `C31_whole_refuted` |
| `floor` is one less at negative integers | `C33_floor_refuted` |
| Line kernels longer than the line read out of bounds | `C34_long_kernel` |
| Sparse line correlation: gap between the loops, ignored back, wrapped step | `C35_sparse_partial`, `C35_back_partial`, `C35_back_refuted`, `C35_step_refuted` |
| Combining separable kernels which share an axis applies the left one twice | `C37_shared_axis` |
| `compose()` mirrors the kernel | `C38_refuted` |
| ND correlation: stale address at the start of inner rows, wrong planes in dimension 3, endless loop for large windows, writes out of the raster for windows without the origin | `C39_row_refuted`, `C39_plane_refuted`, `C39_large_refuted`, `C39_origin_refuted`, `C39_kernelize_refuted`, `C113_origin_refuted`, `C115_origin_refuted` |
| Median filter with an even window: wrong ranks, undefined for two values | `C40_even_refuted` |
| Nearest-neighbor interpolation truncates negative coordinates | `C42_refuted` |
| Linear interpolation reverses the weights: not continuous, wrong on affine rasters | `C43_integral_refuted`, `C43_affine_refuted`, `C43_continuous_refuted` |
| `StablePoissonNoise` default mean 0, and zero pixels, break the precondition of `std::poisson_distribution` | `C47_zero_refuted` |
| `ImpulseNoise` with probabilities summing to just under one never returns the input; `saltAndPepper` with equal values ignores pepper | `C48_refuted`, `C48_salt_pepper` |
| DFT lengths are silently narrowed to `int`; composing with a larger shape overflows the buffer | `C49_extents_refuted`, `C49_compose_refuted` |
| DFT lengths of at least 2^31: the transform silently ignores values; for null lengths and those from 2^31 to 2^32, a null FFTW plan is executed | `C121_long_refuted`, `C121_truncated_refuted`, `C121_null_refuted` |
| The set of evaluated steps is copied and moved apart from the values: a moved pipeline, or a copy whose class does not copy the values, may return values which it does not have | `C122_source_refuted`, `C122_copy_refuted` |
| `Segment::fromSize` is right for front 0 only | `C51_segment_refuted` |
| `Ball::size()` is the size of the bounding box | `C55_size_refuted` |
| Moving data samples converts the offset to the element type; postfix increment returns the wrong value | `C56_moves_refuted`, `C56_postfix_refuted` |
| The default origin of line kernels depends on the order of evaluation of arguments | `C57_origin_refuted` |
| Position loops of the iteration benchmark never end for empty rasters | `C58_empty_refuted` |
| Default `UniformNoise` can overflow (undefined for `int` and `long`) when added to half the max; `Limits::epsilon` of integers is 0 | `C59_corner_refuted`, `C59_epsilon_refuted` |
| A moved-from raster of fixed dimension, or any raster after `moveTo`, keeps its shape but has no pixel | `C61_moved_refuted`, `C61_move_to_refuted` |
| FITS: pixels of more than one byte are truncated; errors are silent, and an object is of no use after one; a wrong dimension leaves the file open | `C62_wide_refuted`, `C62_overwrite_refuted`, `C62_missing_refuted`, `C62_sticky_refuted`, `C62_dimension_refuted` |
| `Kernel1d` in two dimensions: the offset between rows is converted to the pixel type; a region which stops before the right border overruns the intermediate raster | `C63_bytes_refuted`, `C63_region_refuted` |
| Linear interpolation of doubles: infinite when the difference of pixels overflows; exceeds the pixels at tiny negative positions | `C64_overflow_refuted`, `C64_negative_refuted` |
| Cubic interpolation of doubles does not reproduce constants (0.1); nearest neighbour of 0.49999999999999994 is 1 | `C65_cubic_refuted`, `C65_nearest_refuted` |
| `linspace`: first value is NaN when `max - min` overflows; exceeds `max` for subnormal steps. `range`: steps are not exact, contrary to its documentation | `C66_overflow_refuted`, `C66_subnormal_refuted`, `C66_range_refuted` |
| `mean` of equal values can exceed them | `C67_mean_refuted` |
| `Matrix::diagonal` with more values than columns writes off the diagonal or out of the array | `C68_diagonal_refuted`, `C68_diagonal_characterised` |
| The Eigen map of a copied `Matrix` refers to the elements of the source: `determinant` of the copy is that of the source, dangling after its destruction, and assigning to the copy writes in the source | `C68_copy_refuted`, `C68_assign_refuted` |
| `Matrix::inverse` discards its result, `shape` returns a reference to a temporary, `operator()` and `at` do not compile | by reading |
| `OutOfBoundsError::mayThrow` never rejects NaN | `C69_nan_refuted` |
| The message of `OutOfBoundsError` has no separator after the name, and that of `at` has the index twice | `C69_form_refuted` |
| `NullPtrError::mayThrow` is not static | by reading |
| `ProgramOptions::has` is true for flags and options with default value which are not given | `C71_has_refuted` |
| Parsing again silently ignores the options which were given before | `C71_again_refuted` |
| After a `parse` which throws, options may be set without value and correct command lines may throw | `C71_error_refuted` |
| Options declared in a copy of `ProgramOptions` are added to the original | `C71_copy_refuted` |
| Products of rasters of `unsigned short` may be undefined (they are made in `int`) | `C72_unsigned_refuted` |
| `range` overflows after its last element, e.g. when the latter is the greatest `int` | `C72_range_refuted` |
| The documented `r *= 0.2125` on unsigned char pixels makes the image black: the factor is converted to the pixel type | `C73_scaling_refuted`, `C73_less_than_one` |
| The documented loop over `raster.domain()` is not equivalent to the others: it never ends for empty rasters and throws for a run-time dimension | `C74_domain_refuted`, `C74_domain_empty` |
| Replacing a formula by `generate()` changes the result for integers narrower than int, and may even trade a result for undefined behaviour | `C75_integral_refuted` |
| The demonstrated `rgbToHsv` returns uninitialised members for greys and black | `C77_grey_refuted` |
| The demonstrated `rgbToHsv` gives a hue which is not 120 for some shades of pure green, e.g. (0, 3, 0) | `C106_rounding` |
| Prewitt, Sobel and Scharr kernels differentiate in the direction opposite to the documented one | `C78_direction_refuted` |
| `mad()` depends on the same unspecified order as `median()` | `C54_order_refuted` |
| `mad()` of integers truncates the deviations | `C54_integer_refuted` |
| `mad()` of 0 and twice the least positive double is null, and `median()` of doubles depends on the same unspecified order | `C107_refuted`, `C107_order_refuted` |
| `Chronometer`: stopping twice counts the same time twice; last, min and max are undefined before the first increment | `C46_stop`, `C46_empty` |
| Move assignment of a `DftPlan` never destroys the FFTW plan it overwrites, and leaks both buffers; moves leak the buffers | `C81_destroyed_refuted`, `C81_lost_plans`, `C81_leaked_blocks`, `C119_assign_refuted` |
| Each call to `realDft`, `complexDft` and their inverses leaks the data of the raster it returns | `C81_functions_refuted`, `C81_functions_leak_forever` |
| After `dft.in() = raster` (documented), `transform()` still reads the former buffer | `C82_in_out_refuted`, `C82_assignment` |
| `transform()` of a moved plan dereferences a null pointer | `C82_transform_refuted` |
| Separable kernels and `Kernel1d` print debug lines, with a conversion (`%i`) which is undefined for floating-point pixels and 64-bit integers | `C84_type_refuted`, `C84_line`, `C84_separable` |
| An integral kernel truncates the partial sums of floating-point pixels, and wraps those of wider pixels | `C85_floating_refuted`, `C85_wrap_refuted`, `C85_overflow_refuted`, `C85_separable`, `C85_floating_bound` |
| Quantiles of doubles may exceed the maximum by rounding, medians of subnormal values underflow, slightly negative arguments extrapolate | `C86_within_refuted`, `C86_median_subnormal_refuted`, `C86_negative_refuted`, `C86_error` |
| Correlations of doubles depend on the order of the axes and on mirroring; partial sums may overflow; infinite pixels under null kernel values give NaN | `C87_order_refuted`, `C87_mirror_refuted`, `C87_overflow_refuted`, `C87_infinite_refuted`, `C87_error` |
| Noises of integers applied to rasters of doubles, as in the documentation, truncate all the pixels, even those which impulse noise keeps; pixels out of range are undefined behaviour | `C89_kept_refuted`, `C89_range_refuted`, `C89_poisson_refuted`, `C89_impulse` |
| `ImpulseNoise` accepts negative, NaN and infinite probabilities | `C88_invalid_refuted` |
| Iterators over balls and subrasters refer to their own members: copies dangle when their source dies, e.g. the iterator which `std::find` returns | `C90_ball_copy_refuted`, `C90_sub_copy_refuted` |
| `*it++` yields the next position: the front of the region is missed and its end position is visited | `C90_postfix_refuted` |
| The mean of large doubles overflows although it is representable | `C91_overflow_refuted` |
| The copy of an aligned raster constructed by a move shares its pixels; allocation failures and overflows of the number of bytes are not reported | `C92_moved_copy_refuted`, `C92_allocation_refuted`, `C92_copy_refuted`, `C92_overflow_refuted` |
| The median filter of an even number of neighbors is not determined by the image | `C93_median_even_refuted` |
| In-place operators and `apply` interrupted by an exception leave the container half modified | `C94_inplace_refuted`, `C94_retry_refuted` |
| NaN pixels: `min()`, `max()` and `minmax()` are undefined if there are also two different numbers (usual implementations answer NaN if it comes first and ignore it elsewhere); `r == r` is false; zero coefficients of kernels and null interpolation weights do not mask NaN | `C96_min_refuted`, `C96_position_refuted`, `C96_equality_refuted`, `C96_zeros_refuted`, `C96_filter_nan`, `C96_linear` |
| `distribution()` is undefined as soon as one pixel of type `unsigned short` or `int` exceeds 46340 (its square overflows), whatever is queried; sums and means of narrow types wrap around (the mean of bytes 200 and 100 is 22); `mad()` and even median filters may overflow | `C97_ushort_refuted`, `C97_signed_partial`, `C97_mean_refuted`, `C97_mad_refuted`, `C97_filter_refuted` |
| Real transforms with the same buffer as input and output: FFTW pads the rows to 2 (n / 2 + 1) values but `in()` and `out()` are contiguous, so that results are wrong beyond the first row; a buffer of the size of `in()` is too small | `C98_real_refuted`, `C98_inverse_refuted`, `C98_normalize_refuted`, `C98_real_small_refuted` |
| Mathematical functions of integers go through doubles: `floor()`, `ceil()`, `trunc()` and `round()` change integers of 64 bits above 2^53 or are undefined; `sqrt()` exceeds the integer root from 2^52 + 2^27 on; `abs()` of the least value is negative (narrow types) or undefined; `fdim()` is undefined where the difference does not fit | `C99_rounding_refuted`, `C99_rounding_undefined_refuted`, `C99_sqrt_refuted`, `C99_abs_refuted`, `C99_fdim_refuted` |
| Interpolation at negative integers: the linear one gives the previous pixel; so does the cubic one at -2^53 | `C100_negative_refuted`, `C100_far_refuted` |
| `Limits<T>::epsilon()` of floating-point types is not the difference between consecutive values but at 1; `almostMin()` and `almostMax()` are `min()` and `max()` | `C101_epsilon_refuted`, `C101_almost_refuted` |
| An `ArrRaster` without a shape, or moved from with variable dimension, has as many pixels as its capacity; views on it do not follow moves | `C102_size_refuted`, `C102_follow_refuted` |
| Median filter with an even window: the value depends on how std::nth_element arranges the others, and the sum may overflow (constant images are not kept); the sign of a zero depends on std::nth_element for odd windows, too | `C103_even_refuted`, `C103_unsigned_refuted`, `C103_signed_refuted`, `C103_overflow_refuted`, `C103_zero_refuted` |
| Median filter in place: the pixels which are already filtered are read again | `C104_in_place_refuted` |

Read but not expressible in the model (ill-formed code, lifetimes): `Limits<std::complex<T>>::halfMin` and `halfMax` (complex divided by int), hence default `UniformNoise` of complexes, `DataDistribution::variance`, unary `+`, `clamp(position, box)`,
extrapolators of decorators, `Sampling::along(i)`, the Laplacian and `window()` of `SeparableKernel`, and a pipeline step with a single-element tuple of
prerequisites do not compile; neither do the pixel-wise `min(other)` and `max(other)` of containers, as `DataContainer::min()` and
`max()` hide them, nor `abs()` of unsigned integers of 32 bits or more (ambiguous); `correlateSamples` and the postfix increments of the
iterators of samplings lack a return statement;
plan creation overwrites the shared buffers (documented); `std::uniform_int_distribution`, which `UniformNoise` uses, is not
specified for `bool` and characters.

## Plan per property

| Id | Model | Proof |
|----|-------|-------|
| C01 | Horner recursion (fixed dimension) and reverse loop (run-time dimension) over shape and position | explicit inverse by div/mod, induction on the dimension |
| C02 | the same with checked 64-bit operations | bound of each intermediate value by the size |
| C03 | `next`, `beginPosition`, `endPosition`, for-loop with fuel | the k-th visited position is the one of rank k in the box; induction |
| C04 | same | invariant coordinates >= front; no fuel suffices => refuted; proved for non-empty boxes |
| C05 | `shape`, `shapeSize`, `length` | against the enumeration of the positions; refuted for two negative lengths |
| C06 | all `Box` operators | set-of-positions semantics |
| C07 | `surround` loop | loop invariant: pieces so far + current box partition; induction on axes |
| C08 | `at(Index)` with `size_t`/`long` conversions | case analysis |
| C09 | `at(Position)` | induction on axes, C01 |
| C10 | `contains` | induction on axes, C01 |
| C11 | constructors, with the moved-from shape for run-time dimension | case analysis; refuted for run-time dimension |
| C12 | `isContiguous`, `slice`, `section` as pointer offset plus reduced shape | index algebra |
| C13 | `Subraster::operator[]`, `SubrasterIterator` | row decomposition of the box iteration |
| C14 | `operator==` | list equality |
| C15 | mixin operators as `std::transform` loops over memory | pointwise induction |
| C16 | in-place loops reading the scalar by reference | refuted, characterised |
| C17 | `subtractable2_left` | refuted, characterised |
| C18 | loops | induction; refuted parts for integer linspace |
| C19 | loops with state-passing function | induction |
| C20 | `min_element`, `max_element` loops | induction |
| C21 | state = permutation; nth_element as a relation | uniqueness of order statistics; invariant over histories |
| C22 | rational interpolation | refuted, characterised as reversed interpolation |
| C23 | double loop with write pointer | refuted at the last bound; proved below it |
| C24 | `T / size_t` division | refuted for negative sums, proved for non-negative |
| C25 | address arithmetic with land/lnot | power-of-two lemmas |
| C26, C27 | heap of blocks, buffers, operations, history | invariant over histories; leak refuted |
| C28, C29 | size formula, iterator | arithmetic; refuted for DataSamples iteration |
| C30 | filter on box iteration | C03 |
| C31 | vector helpers | direct; refuted for inf |
| C32 | clamp | direct |
| C33 | floor | refuted for negative integers, proved otherwise |
| C34, C35 | three loops of line correlation | equivalence with cropped sum; refuted for steps |
| C36 | loop over the projected domain with strides | C34, C03 |
| C37, C38 | composition of C36 | commutation of sums; compose refuted |
| C39 | pointer walk of the inner region and extrapolated regions | refuted; characterised |
| C40 | median with nth_element as a relation | odd counts proved, even refuted |
| C41 | three methods | direct |
| C42-C44 | rationals | refuted for linear, nearest with negative; cubic identities |
| C45 | steps, prerequisites, log | invariant over histories |
| C46 | state machine with clock | invariant over histories |
| C47, C48 | abstract engine and distribution | induction over the container |
| C49 | shapes and buffer identities of plans | invariant over chains |
| C50 | token list | case analysis |
| C51 | `Segment::fromSize` | direct; refuted |
| C52 | element-wise functions | C15 loops |
| C53 | command-line serialization | direct |
| C54 | MAD from two medians | C21 |
| C55 | ball operators, bounding box | integer square root bounds; size refuted |
| C56 | moves of data samples with conversions | modular arithmetic; refuted parts |
| C57 | both evaluation orders of the constructor | case analysis; refuted |
| C58 | the eight loops of the iteration benchmark over memory and position iterators | each equals the element-wise map; refuted (endless) for empty rasters |
| C59 | limits of integral types, integral promotion, checked addition | case analysis on types, arithmetic; one corner refuted |
| C60 | arbitrary distribution and engine as state functions | induction over the history of calls, C19 loops |
| C61 | memory of blocks, rasters as owners of a block or views on one, programs as lists of operations | invariant (unique ownership) by induction over programs, then the effect of each operation |
| C62 | files, status and CFITSIO calls, which fail according to an arbitrary oracle; rasters as bytes | symbolic execution of the calls; induction over the history of the object for failures |
| C63 | rows then columns through line correlation, offsets converted to the pixel type | each line through the characterisation of C35 for any sampling; injectivity of addresses; induction over lines |
| C64 | Flocq's binary64 operations, to nearest even; recursion over the axes | rounding lemma `rnd(d rnd(p - n)) <= p - n` for `d < 1` (predecessor and midpoint), exactness of `x - floor(x)`, induction over the axes |
| C65 | idem | exact integer arithmetic below 2^53; case analysis on binades for `x + 0.5` |
| C66 | idem, loops over the container | relative errors of the four operations against `(k - 1) / k`; monotonicity of rounding |
| C67 | idem, left fold | exact integer sums, monotonicity of rounding |
| C68 | `MatrixModel.v`: strided writes, blocks of memory for copies | induction on the values, witnesses for aliasing |
| C69 | `TextModel.v`: strings | induction on the appended lines, comparison of finite doubles |
| C70 | `SeqModel.v`: any permutation as order of evaluation | induction on the order, extensionality |
| C71 | `OptionsModel.v`: store of variables with final names | invariant of each option over the history of parses |
| C72 | `WidthModel.v`: integral types as signedness and width, promotions, conversion modulo 2^width | cases of the evaluated value; containers by `transform2_spec`; induction over the range |
| C73 | `WidthModel.v`: the scalar is truncated to the pixel type first | truncation of rationals; containers by `transform1_spec` |
| C74 | `TraverseModel.v`: one function per kind of loop, with fuel where it may not end | each loop is a map over the data; nested loops by induction on the axes |
| C75 | `ExprModel.v`: formulae as trees, evaluated with containers or pixel by pixel | induction on the formula, with the frame of each temporary |
| C76 | `ChannelModel.v`: loop by blocks, weighted sum, update of a section | induction on the number of blocks; index of a pixel in terms of its first or last coordinate |
| C77 | `ChannelModel.v`: conversion over rationals, uninitialised members being a distinct outcome | cases of the largest component; linear arithmetic |
| C78 | `SeparableModel.v`: the filters as combinations of line kernels | from C37; a correlation with three values maps affine images to affine images |
| C79 | complex numbers over `R`, DFT as sums over positions, FFTW's documented arrays (row-major) as a relation | orthogonality of characters by induction over axes; permutation of the sums for the reversed layout; Hermitian symmetry for the half arrays |
| C80 | the documented sequence of plan operations over a memory | convolution theorem, composed with C79 and the frame lemmas of C49 |
| C81 | `PlanModel.v`: plans over the aligned buffers of C25–C27, FFTW plans with the addresses they read and write, planner as a relation | invariant over histories; leaks are exactly the runs through an overwriting operation |
| C82 | same model; `Synced` compares the addresses of FFTW with those of in() and out() | invariant and frame lemmas (buffers and plans which operations do not touch) |
| C83 | `DerivativeModel.v`: the demonstrated sequences, for any signal | the transform of a harmonic has one coefficient below n / 2 (orthogonality, C79); sums of harmonics by linearity; counter-example by aliasing above |
| C84 | `PrintModel.v`: the same loops with the calls to `printf`, whose arguments must have the type of the conversion | simulation of the loops without prints; the calls of a line by the bounds of its three loops; induction on the axes |
| C85 | `MixedModel.v`: the loops of correlations where each partial sum is computed in the common type and converted to the type of the kernel | simulation of the exact loops, with a relation between partial sums: congruence, bound, or distance after truncation |
| C86 | `QuantileModel.v`: `quantile()` and `median()` of sorted doubles, rounding included (Flocq) | monotonicity of rounding; the sum of the weighted largest doubles stays below the overflow threshold since each product is rounded below; error bounds |
| C87 | `FloatKernelModel.v`: correlations of doubles along axes, rounding included (Flocq) | simulation with the exact correlations of C36, since finite doubles are integral multiples of 2^-1074; invariant of the rounding error of the inner product; a second simulation relates two images |
| C88 | `FloatNoiseModel.v`: weights of the impulse noise with rounding (Flocq), draws as an arbitrary sequence of indices | invariant of the loop of subtractions: each rounding error is at most 2^-54 since partial differences are at most 1 |
| C89 | `FloatNoiseModel.v`: conversions around an arbitrary stateful noise | simulation between the containers of both types |
| C90 | `IterModel.v`: objects with references to other objects, operations on them | invariant by induction on histories: what an iterator refers to does not change, its rank counts its increments |
| C91 | `FloatModel.v`: `dmean`, `drange`, `dlinspace` | relative error of sums by induction, (1 + 2^-53)^n (Flocq); overflow witness |
| C92 | `AlignedDataModel.v`: contents of the memory, element copies and writes on top of `AlignedModel.v` | invariant of `AlignedProofs.v` extended to disjoint blocks; frame of each operation; witnesses |
| C93 | no new model: `MedianModel.v`, `SeparableModel.v` | two runs related through the specifications of C37 and C40; order statistics by counting |
| C94 | `ThrowModel.v`: generate, apply, in-place operators and operators with new instance, with the memory after an exception | induction on the calls, invariant on the elements done so far |
| C95 | the functions of C79 as a relation between input and output rasters | composition of C79 with sums over permuted domains (shifts, opposite frequencies) and orthogonality |
| C96 | min, max, minmax of doubles, undefined where < is not a strict weak ordering; equality, mean, interpolation and separable filters of doubles as in C64-C67, C87, C91 | an order which completes < on NaN; simulation of a filter on two images and on the count of NaN in windows |
| C97 | the loop of the constructor of DataDistribution, mean, mad and the final step of the median filter, with promotions, overflow and conversions | invariant of the loop (sums modulo 2^bits); exact conditions per class of types; mad refines that of C54 |
| C98 | constructor with pointers, inverse(), in(), out(), transform(), normalize() over addresses in an array of doubles of the caller; FFTW's array formats | reading and writing through two layouts; agreement of the layouts, otherwise characterisation with the padded raster |
| C99 | the functions of `Math.h` over integers: conversion to double, external function, conversion to the type of the elements | exactness of doubles up to 2^53; nearest-double arguments for square roots; lifting to containers with the lemmas of C15 to C17; implementations of the external functions show that their specifications can be met |
| C100 | `dlinearAt` and `dcubicAt` of C64, C65; exact weighted sums over the axes in real arithmetic | error of each operation as a multiple of the unit roundoff times the magnitude of the pixels; L1 norm of the weights (1 for linear, at most 5/4 for cubic); induction over the axes |
| C101 | `Limits` and `RandomGenerator::add` over any binary format of Flocq | computation of the limits as reals; nearest rounding absorbs an epsilon next to the max; successor of one |
| C102 | rasters which contain their cells or point to those of another, programs as lists of operations | invariant (pointers target rasters over arrays) by induction over programs, then the effect of each operation |
| C103 | the loop of C40 over any order and conversion, instances for integers of any width and doubles | order statistics by counting, from the postcondition of std::nth_element alone; induction over the region |
| C104 | interleavings of calls to applyTo on several regions, a step being an iteration of the loop over a region | invariant over the interleaving: what is still to do has no duplicates, and what is done is final; induction over the number of pixels to do for termination |
| C105 | threads with the offsets of their view which are still to be read and written, interleavings of single accesses, data races as undefined behavior | invariant: the pending offsets of the threads are disjoint, without duplicates, and in the data; the offsets are those of C12 and C13; for overlaps, a schedule which leads to the race |
| C106 | `HsvModel.v`: the same function as C77 with doubles of Flocq | comparisons of channels are those of the components; bounds of the rounding errors, step by step; the exact hue is at least 60/255 from a full turn, or exactly 0 |
| C107 | `DistFloatModel.v`: `quantile()`, `median()` and `mad()` of doubles in any state, as relations | comparisons of finite doubles are a strict weak ordering, hence the lemmas of C21; operations do not depend on the signs of zeros; order statistics are monotonic and move no more than the values, hence rounding commutes with them |
| C108 | `RegionAliasModel.v`: modifiers of boxes and balls in a memory where operands are addresses | loops of `ArithModel.v` over the same or disjoint addresses; the second loop reads the result of the first one |
| C109 | `InPlaceModel.v`: the loops of `MedianFilter` and `LineKernel` reading the current state of their output | induction on the visited positions: the state is the output on the former ones, the input elsewhere |
| C110 | `DecoratorModel.v`: rasters and decorators as objects, references as ranks | invariants of each operation, induction on the history, against the fold of the operations on the raster only |
| C111 | `NestedModel.v`: bodies of steps as trees of calls to `get` and `reset`, log of the beginnings and ends | induction on the depth of calls and on the bodies, with an invariant on the steps being evaluated |
| C112 | `PipeThreadModel.v`: calls cut into accesses to the map and to the data of the steps, interleaved; `PipeThrowModel.v`: the same with exceptions | invariant of the read-only threads; constructed interleavings for races; whole calls by induction on ranks, with weights which decrease |
| C113 | `TypedKernelModel.v`: `Kernel.h` again with any types and conversions; instances for integers, doubles and both | loops as successive writes, outcomes position by position; then the lemmas of C85 for integers and of C87 for doubles; integers on doubles which are whole numbers are exact by induction on the window |
| C114 | `FloatSamplingModel.v`: `AxisSampling<double>` with the conversions of indices | iteration as a ramp (C91); relative errors of the size; simulation with `SamplingModel.v` for integer values |
| C115 | `InPlaceKernelModel.v`: the loops of `Kernel` reading the current state of their output | inner region: addresses read are after those written; borders: no position after one of a box of `surround` is in a former box; in general: induction over the visited positions, whose order is that of phases computed from the position (`InPlaceOrderSpec.v`) |
| C116 | `TypedKernelModel.v`, for windows which do not fit in the raster | boxes of size 0 are skipped; the others cover the domain, maybe several times; the value written is a function of the position |
| C117 | `ElementModel.v`: elements of containers and views without bound checking, with unsigned indices | lists; ranks of the first and last positions |
| C118 | `PlanThreadModel.v`: executions of FFTW as arbitrary programs which read and write bytes, interleaved; arrays of the plans of `PlanModel.v` | locality of programs; invariants of histories: blocks are disjoint, owned arrays are in their blocks; constructed interleavings |
| C119 | `ExitModel.v`: programs as sequences of constructions, moves, transforms and destructions of plans and static objects; the destruction of static objects in reverse order; the calls to FFTW | invariant of programs; induction on the static objects in the three phases of the allocator's lifetime |
| C120 | `PlanWorkModel.v`: threads as sequences of tasks - creation, execution, use of the rasters, destruction of plans - performed by arbitrary programs; FFTW's global variables as a set of addresses | locality of programs with respect to sets of addresses, disjoint arrays (C118); constructed interleavings |
| C121 | `DftShapeModel.v`: FFTW plans, possibly null, of the narrowed lengths of any shape; transforms of buffers as lists | narrowed lengths are not greater than those of the shape, hence monotony of products |
| C122 | `PipeCopyModel.v`: pipelines as objects, with arbitrary copies and moves of the data members and of `std::map` | frame lemma for each operation, induction over histories |
