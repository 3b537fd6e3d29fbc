{"id": "C01", "title": "Position/index bijection", "statement": "Raster::index maps the positions of the raster domain one-to-one onto 0..size-1. The layout is row-major with axis 0 fastest: moving by one along axis k changes the index by the product of the lengths of the axes before k. The first position has index 0 and the last one index size-1. The fixed-dimension and run-time-dimension versions give the same index.", "quantifier": "all dimensions, all shapes with positive lengths, all positions of the domain", "why_tests_cant": "a collision or gap may only occur for particular shapes and positions; there are infinitely many of both", "anchors": ["LitlRaster/LitlRaster/impl/Raster.hpp: index", "LitlRaster/LitlRaster/Raster.h: Raster::index", "LitlRaster/LitlRaster/Vector.h: shapeStride, shapeSize"]}
{"id": "C02", "title": "Index arithmetic never overflows for representable rasters", "statement": "If the number of pixels of a raster fits in a signed 64-bit integer, computing size(), the axis strides and index(position) for any position of the domain never performs a signed 64-bit operation whose result is out of range, so the machine result is the mathematical one.", "quantifier": "all shapes with positive lengths whose product is below 2^63, all positions of the domain", "why_tests_cant": "overflow is undefined behaviour and depends on the order of the multiplications and additions for huge shapes which a test cannot allocate", "anchors": ["LitlRaster/LitlRaster/impl/Raster.hpp: index", "LitlRaster/LitlRaster/Vector.h: shapeSize, shapeStride"]}
{"id": "C03", "title": "Box iteration is exhaustive, duplicate-free and in memory order", "statement": "Iterating over a non-empty box from begin() to end() terminates, yields each position of the box exactly once and nothing else, the first position being front() and the last one back(), in the order of increasing raster index.", "quantifier": "all dimensions, all boxes with front <= back on every axis", "why_tests_cant": "carry propagation between axes may fail only for some shapes (length-1 axes, last axis, negative coordinates)", "anchors": ["LitlRaster/LitlRaster/BoxIterator.h: Box::Iterator", "LitlRaster/LitlRaster/Box.h: Box"]}
{"id": "C04", "title": "Iteration over an empty box", "statement": "Iterating over an empty box (a zero or negative length on some axis), e.g. over the domain of an empty raster, visits no position and terminates.", "quantifier": "all dimensions, all boxes with front > back on at least one axis", "why_tests_cant": "non-termination cannot be observed by a finite test", "anchors": ["LitlRaster/LitlRaster/BoxIterator.h: Box::Iterator::next, endPosition"]}
{"id": "C05", "title": "Box size is the number of positions", "statement": "Box::size() is the number of positions whose coordinates all lie between front() and back(); it equals the number of positions visited by iteration, and is 0 for an empty box.", "quantifier": "all dimensions, all boxes", "why_tests_cant": "counting is over arbitrary boxes; sign errors show up only for degenerate boxes", "anchors": ["LitlRaster/LitlRaster/Box.h: Box::size, shape, length", "LitlRaster/LitlRaster/Vector.h: shapeSize"]}
{"id": "C06", "title": "Box geometry laws", "statement": "fromShape(front, shape) has that front and that shape; fromCenter(r, c) contains exactly the positions at Chebyshev distance at most r from c; translating by a vector translates the set of positions and keeps the shape; growing by a margin then shrinking by it, or translating by v then -v, gives back the same box; equality of boxes is equality of front and back; project() keeps exactly the positions with the front coordinate on the given axis; unary minus reflects the set of positions.", "quantifier": "all dimensions, boxes, margins, vectors and scalars", "why_tests_cant": "algebraic laws over unbounded integers", "anchors": ["LitlRaster/LitlRaster/Box.h: Box::fromShape, fromCenter, operator+=, operator-=, operator-, project, operator=="]}
{"id": "C07", "title": "surround() partitions the grown box", "statement": "For a margin with front <= 0 <= back, the boxes returned by box.surround(margin) are non-empty, pairwise disjoint, disjoint from the box, and together with it cover exactly box + margin. An axis with a zero margin contributes no box.", "quantifier": "all dimensions, all non-empty boxes, all margins with non-positive front and non-negative back", "why_tests_cant": "gaps or overlaps may appear only at some corners and in dimensions the tests do not try (only one 2D case is tested)", "anchors": ["LitlRaster/LitlRaster/Box.h: Box::surround"]}
{"id": "C08", "title": "Bounds-checked element access by index", "statement": "at(i) on a container of size s returns element i for 0 <= i < s, element s+i for -s <= i < 0, and throws OutOfBoundsError otherwise, without touching memory. It never reads outside of the container.", "quantifier": "all containers (including empty ones), all 64-bit indices", "why_tests_cant": "boundary conditions at -s, -1, 0, s-1, s for all s, mixing signed and unsigned arithmetic", "anchors": ["LitlContainer/LitlContainer/DataContainer.h: DataContainer::at", "LitlTypes/LitlTypes/Exceptions.h: OutOfBoundsError::mayThrow"]}
{"id": "C09", "title": "Bounds-checked pixel access by position", "statement": "at(p) returns the pixel whose coordinate on each axis is p[i] if it is non-negative and p[i] + length otherwise, throws OutOfBoundsError iff some coordinate lies outside of [-length, length-1], and never reads outside of the raster.", "quantifier": "all dimensions, shapes, positions", "why_tests_cant": "every axis has its own boundary and backward-indexing cases", "anchors": ["LitlRaster/LitlRaster/impl/Raster.hpp: Raster::at", "LitlRaster/LitlRaster/Raster.h: Raster::at"]}
{"id": "C10", "title": "contains() decides membership of the domain", "statement": "contains(p) is true iff p is one of the positions of the raster domain, iff index-based access at p with operator[] designates a pixel of the raster that no other contained position designates.", "quantifier": "all dimensions, shapes, positions", "why_tests_cant": "unbounded coordinates", "anchors": ["LitlRaster/LitlRaster/Raster.h: Raster::contains, domain"]}
{"id": "C11", "title": "Construction checks sizes", "statement": "Constructing a raster from a shape and a list, range or container of values succeeds iff the number of values is the product of the lengths, and throws otherwise; on success pixel k in memory order is value k. Array-backed containers accept exactly their own capacity.", "quantifier": "all dimensions (fixed or run-time), shapes and value lists", "why_tests_cant": "the evaluation order of moved-from arguments and mismatched sizes are not exercised for each constructor and dimension kind", "anchors": ["LitlRaster/LitlRaster/Raster.h: Raster constructors", "LitlContainer/LitlContainer/Holders.h: StdHolder, SizeError", "LitlContainer/LitlContainer/DataContainer.h: DataContainer constructors"]}
{"id": "C12", "title": "Slices and sections are windows on the parent", "statement": "For a contiguous region of the domain, slice<M>(region) and section() are rasters whose pixel q is the parent pixel at region.front + q, they cover exactly the pixels of the region, they stay within the parent memory, writing through them changes these pixels and no other one. Non-contiguous regions are rejected by an exception.", "quantifier": "all dimensions, shapes, regions of the domain, positions of the view", "why_tests_cant": "contiguity of arbitrary sub-boxes in arbitrary dimension, all positions", "anchors": ["LitlRaster/LitlRaster/impl/Raster.hpp: slice, section, isContiguous", "LitlRaster/LitlRaster/Raster.h: Raster::slice, section"]}
{"id": "C13", "title": "Subraster access and iteration", "statement": "subraster(region)[q] is the parent pixel at region.front + q; iterating over a subraster yields exactly the parent pixels of the region, once each, in memory order, and terminates.", "quantifier": "all dimensions, shapes, non-empty regions inside of the domain", "why_tests_cant": "row-jump logic depends on the region and on the shape", "anchors": ["LitlRaster/LitlRaster/Subraster.h: Subraster", "LitlRaster/LitlRaster/SubrasterIterator.h: Subraster::Iterator"]}
{"id": "C14", "title": "Raster equality", "statement": "Two rasters compare equal iff they have the same shape and the same pixel at each position; in particular equality is an equivalence relation, and rasters with the same pixels and different shapes differ.", "quantifier": "all pairs of rasters, fixed or run-time dimension", "why_tests_cant": "needs all pairs; tests compare a few rasters", "anchors": ["LitlRaster/LitlRaster/Raster.h: operator==, operator!=", "LitlContainer/LitlContainer/ContiguousContainer.h: operator=="]}
{"id": "C15", "title": "Pixel-wise arithmetic", "statement": "Each of the in-place and new-instance +, -, *, /, % operators between containers of the same size, or between a container and a scalar which is not one of its elements, computes the scalar operation at each index, changes no other object, and keeps the size. + and - (and, over exact values, * and /) with the same operand are inverse.", "quantifier": "all sizes, all contents, all operators", "why_tests_cant": "laws over all contents", "anchors": ["LitlContainer/LitlContainer/Arithmetic.h: VectorArithmetic, EuclidArithmetic", "boost::operators as used there"]}
{"id": "C16", "title": "Scalar operands which alias an element", "statement": "v op= v[k] applies the value v[k] had before the operation to all elements.", "quantifier": "all containers, operators and k", "why_tests_cant": "aliasing only shows for the elements after k; tests use literal scalars", "anchors": ["LitlContainer/LitlContainer/Arithmetic.h: operator+= (scalar)", "LitlContainer/LitlContainer/DataContainer.h: range"]}
{"id": "C17", "title": "Scalar minus vector", "statement": "a - v is the vector of the a - v[i].", "quantifier": "all scalars, all vectors", "why_tests_cant": "tests exercise few scalar values", "anchors": ["LitlContainer/LitlContainer/Arithmetic.h: boost::subtractable2_left", "LitlRaster/LitlRaster/Vector.h: Vector constructors"]}
{"id": "C18", "title": "fill, range and linspace", "statement": "fill(v) makes all elements v. range(min, step) makes element i equal to min + i*step. linspace(min, max) makes the first element min, the last one max, and equal increments in between, for at least two elements.", "quantifier": "all sizes, bounds and steps", "why_tests_cant": "all sizes including 0, 1 and 2; integral types; decreasing ranges", "anchors": ["LitlContainer/LitlContainer/DataContainer.h: fill, range, linspace"]}
{"id": "C19", "title": "generate and apply", "statement": "c.generate(f, a, b...) sets element i to f(a[i], b[i]...) and c.apply(f, a...) to f(c[i], a[i]...), calling f exactly once per element in index order, and leaves a, b... unchanged; with a stateful f the k-th call produces element k. Arguments shorter than c are a violated precondition.", "quantifier": "all sizes, all functions (possibly stateful), all numbers of arguments", "why_tests_cant": "functions are arbitrary", "anchors": ["LitlContainer/LitlContainer/DataContainer.h: generate, apply", "LitlTypes/LitlTypes/SeqUtils.h: seqTransform, seqForeach"]}
{"id": "C20", "title": "Minimum and maximum", "statement": "For a non-empty container, min() and max() are elements of the container, every element lies between them, and minmax() returns both.", "quantifier": "all non-empty containers", "why_tests_cant": "all orders of elements", "anchors": ["LitlContainer/LitlContainer/DataContainer.h: min, max, minmax"]}
{"id": "C21", "title": "Order statistics", "statement": "DataDistribution::nth(n) is the n-th smallest value, whatever the order of the data and the sequence of queries made before; queries permute the internal data only, sort() makes it non-decreasing, min() and max() are the extreme values, median() is the middle value or the mean of both middle values.", "quantifier": "all non-empty data, all sequences of queries", "why_tests_cant": "nth_element leaves an unspecified permutation: correctness must hold for each of them and for each history of queries", "anchors": ["LitlContainer/LitlContainer/DataDistribution.h: nth, sort, min, max, median, quantile, mad"]}
{"id": "C22", "title": "Quantiles interpolate linearly", "statement": "quantile(q) for 0 <= q <= 1 linearly interpolates between the sorted values: it is the value at rank q*(n-1), is non-decreasing in q, is min() for 0 and max() for 1.", "quantifier": "all data, all q in [0, 1]", "why_tests_cant": "tests use evenly spaced data and q in {0, 0.5, 1}, for which reversed weights are invisible", "anchors": ["LitlContainer/LitlContainer/DataDistribution.h: quantile"]}
{"id": "C23", "title": "Histogram counts values per bin", "statement": "histogram(bins) returns, for non-decreasing bins, one count per pair of consecutive bounds: the number of values v with bins[i] <= v < bins[i+1]; values outside of [bins.front, bins.back) are ignored. No memory outside of the result is written.", "quantifier": "all data, all increasing bins", "why_tests_cant": "values equal to bin bounds and beyond the last bound", "anchors": ["LitlContainer/LitlContainer/DataDistribution.h: histogram"]}
{"id": "C24", "title": "Mean of the data", "statement": "mean() is the arithmetic mean of the data (truncated for integers).", "quantifier": "all data, including negative integers", "why_tests_cant": "mixed signed/unsigned division only goes wrong for negative sums", "anchors": ["LitlContainer/LitlContainer/DataDistribution.h: mean, sum"]}
{"id": "C25", "title": "Aligned allocation", "statement": "An owning AlignedBuffer with a power-of-two alignment requirement has a data address which is a multiple of it, and its size elements all lie in the allocated block. A sharing one keeps the given pointer, and throws iff the pointer does not satisfy the requirement. alignment() returns the greatest power of two which divides the address.", "quantifier": "all block addresses, sizes, element sizes, alignment requirements", "why_tests_cant": "the address returned by malloc is arbitrary", "anchors": ["LitlContainer/LitlContainer/AlignedBuffer.h: AlignedBuffer, isAligned, alignment, alignAs"]}
{"id": "C26", "title": "Buffer memory safety over any history", "statement": "Over any sequence of construction, copy, move, copy assignment, move assignment, release, reset and destruction of AlignedBuffers, no block is freed twice, and a buffer which owns a block frees that block at most once; no operation frees a block another buffer owns.", "quantifier": "all finite histories of operations over any number of buffers", "why_tests_cant": "histories are unbounded", "anchors": ["LitlContainer/LitlContainer/AlignedBuffer.h: AlignedBuffer copy/move constructors and assignments, release, reset, destructor"]}
{"id": "C27", "title": "No memory leak", "statement": "When all the buffers are destroyed, every block which was allocated and not handed to the user by release() has been freed.", "quantifier": "all finite histories of operations over any number of buffers", "why_tests_cant": "a leak has no functional effect, so assertions do not see it", "anchors": ["LitlContainer/LitlContainer/AlignedBuffer.h: move constructor, copy and move assignments"]}
{"id": "C28", "title": "Axis and position sampling", "statement": "A sampling of an axis from front to back with a positive step denotes the indices front, front+step, ... not exceeding back; size() is their number and iteration yields them in order.", "quantifier": "all fronts, backs and positive steps", "why_tests_cant": "rounding of the division for all residues", "anchors": ["LitlRaster/LitlRaster/Sampling.h: AxisSampling, PositionSampling"]}
{"id": "C29", "title": "Strided data samples", "statement": "Iterating over DataSamples built on n elements of stride k yields data[(front + j*step)*k] for each sampled index in order, and reads no element outside of the n ones.", "quantifier": "all sizes, samplings, strides", "why_tests_cant": "out-of-bounds pointer arithmetic is invisible to assertions", "anchors": ["LitlRaster/LitlRaster/Sampling.h: DataSamples, DataSamples::Iterator"]}
{"id": "C30", "title": "Ball iteration", "statement": "Iterating over a non-empty p-norm ball yields, once each and in memory order, exactly the integral positions at distance at most the radius of the center.", "quantifier": "all dimensions, radii, centers, and norms", "why_tests_cant": "position sets of arbitrary radius and dimension", "anchors": ["LitlRaster/LitlRaster/Ball.h: Ball", "LitlRaster/LitlRaster/BallIterator.h: Ball::Iterator"]}
{"id": "C31", "title": "Vector constants, slices and extensions", "statement": "zero(), one() and inf() are the vectors of 0s, 1s and of the greatest value, recognised by isZero(), isOne() and isInf(), with the dimension of the vector type; slice<M>() keeps the first M coordinates; extend<M>(v) keeps the coordinates and takes those of v afterwards, so that slicing an extension gives back the vector.", "quantifier": "all dimensions, fixed and run-time, all values", "why_tests_cant": "laws over all vectors", "anchors": ["LitlRaster/LitlRaster/Vector.h: zero, one, inf, isZero, isOne, isInf, slice, extend"]}
{"id": "C32", "title": "Clamping", "statement": "clamp(position, shape) is the nearest position of the domain of that shape: it lies in the domain, equals the position when this is in the domain, and no position of the domain is nearer on any axis.", "quantifier": "all dimensions, positive shapes, positions", "why_tests_cant": "unbounded coordinates", "anchors": ["LitlTypes/LitlTypes/TypeUtils.h: clamp", "LitlRaster/LitlRaster/Box.h: clamp"]}
{"id": "C33", "title": "Integral part", "statement": "floor<Index>(x) is the greatest integer not exceeding x.", "quantifier": "all finite x (exact rational values)", "why_tests_cant": "negative integral values are the corner case", "anchors": ["LitlTypes/LitlTypes/TypeUtils.h: floor"]}
{"id": "C34", "title": "Line correlation", "statement": "Correlating a line of samples with a 1D kernel of k values and origin o, not longer than the line, computes out[i] = sum over j of kernel[j] * in[i - o + j] restricted to the samples in the line (cropping), for each sample i, writes nothing else and stays in bounds.", "quantifier": "all lines, kernels not longer than the line, origins in the kernel, strides", "why_tests_cant": "border handling depends on the three lengths", "anchors": ["LitlTransforms/LitlTransforms/LineKernel.h: LineKernel::correlate", "LitlTransforms/LitlTransforms/Convolution.h: Kernel1d::sparseCorrelate1dTo"]}
{"id": "C35", "title": "Sparse line correlation", "statement": "With a sampling step greater than one, each output sample is the correlation value at the corresponding input sample.", "quantifier": "all lines, kernels, samplings", "why_tests_cant": "interaction of the step with the border loops", "anchors": ["LitlTransforms/LitlTransforms/LineKernel.h: LineKernel::correlate", "LitlTransforms/LitlTransforms/Convolution.h: Kernel1d::sparseCorrelate1dTo"]}
{"id": "C36", "title": "Correlation along an axis", "statement": "Correlating a raster along axis k with a line kernel correlates each line parallel to axis k independently: pixel p of the output only depends on the input pixels which differ from p along axis k, and has the line correlation value.", "quantifier": "all dimensions, shapes, axes, kernels", "why_tests_cant": "strides and starting positions for all shapes and axes", "anchors": ["LitlTransforms/LitlTransforms/SeparableKernel.h: correlateAlong", "LitlTransforms/LitlTransforms/Convolution.h: correlateAlong"]}
{"id": "C37", "title": "Separable kernels", "statement": "Applying a separable kernel applies its line kernels one after the other; the result does not depend on the order of the axes, is linear in the raster, and on combination of kernels with distinct axes, (a * b) * raster = b * (a * raster).", "quantifier": "all rasters, kernels, axis orders", "why_tests_cant": "algebraic laws over all rasters", "anchors": ["LitlTransforms/LitlTransforms/SeparableKernel.h: SeparableKernel::operator*, correlateTo"]}
{"id": "C38", "title": "Composition of separable kernels", "statement": "compose() is the ND kernel whose correlation with a raster is the same as that of the separable kernel.", "quantifier": "all separable kernels", "why_tests_cant": "tests use one kernel", "anchors": ["LitlTransforms/LitlTransforms/SeparableKernel.h: SeparableKernel::compose"]}
{"id": "C39", "title": "ND kernel correlation", "statement": "Correlating an extrapolated raster with an ND kernel of values k on window w yields, at each position p of the raster, the sum over q in w of k[q] * in[p + q], where in is the extrapolated raster; it reads and writes no memory outside of the rasters.", "quantifier": "all dimensions, shapes, windows containing the origin, kernels, extrapolation methods", "why_tests_cant": "constant rasters hide addressing errors; the tested inner region has a single row", "anchors": ["LitlTransforms/LitlTransforms/Kernel.h: Kernel::correlateTo, correlateWithoutExtrapolation, correlateWithExtrapolation"]}
{"id": "C40", "title": "Median filter", "statement": "The median filter outputs at each position the median of the values in the window: the middle value for odd counts, the mean of both middle values for even counts.", "quantifier": "all windows and contents", "why_tests_cant": "the order of the values in the window is arbitrary; even windows are not tested", "anchors": ["LitlTransforms/LitlTransforms/MedianFilter.h: MedianFilter::median, applyTo", "LitlTransforms/LitlTransforms/StructuringElement.h"]}
{"id": "C41", "title": "Extrapolation", "statement": "Inside of the domain every extrapolator returns the pixel. Outside of it, constant extrapolation returns the constant, nearest-neighbor the pixel at the nearest position, periodic the pixel at the position modulo the shape; periodic extrapolation is invariant under translation by the lengths. No access is out of bounds.", "quantifier": "all dimensions, positive shapes, positions", "why_tests_cant": "unbounded positions, negative modulo", "anchors": ["LitlTransforms/LitlTransforms/InterpolationMethods.h: OutOfBoundsConstant, NearestNeighbor, Periodic", "LitlTransforms/LitlTransforms/Interpolation.h: Extrapolator"]}
{"id": "C42", "title": "Nearest-neighbor interpolation", "statement": "Nearest-neighbor interpolation at x returns the pixel (or extrapolated value) at the integral position nearest to x on each axis; at an integral position it is the pixel at this position.", "quantifier": "all rasters, all positions (exact rational values)", "why_tests_cant": "tests only use positions in the positive quadrant", "anchors": ["LitlTransforms/LitlTransforms/InterpolationMethods.h: NearestNeighbor::at"]}
{"id": "C43", "title": "Linear interpolation", "statement": "Linear interpolation at an integral position returns the pixel at this position, is continuous, lies between the neighbours, and reproduces affine rasters exactly.", "quantifier": "all rasters, all positions (exact rational values)", "why_tests_cant": "tests only evaluate the center of a cell, where reversed weights are invisible", "anchors": ["LitlTransforms/LitlTransforms/InterpolationMethods.h: Linear::at"]}
{"id": "C44", "title": "Cubic interpolation", "statement": "Cubic interpolation at a non-negative integral position returns the pixel at this position, is continuous from one cell to the next, and reproduces affine rasters exactly.", "quantifier": "all rasters, all non-negative positions (exact rational values)", "why_tests_cant": "polynomial identities for all values", "anchors": ["LitlTransforms/LitlTransforms/InterpolationMethods.h: Cubic::at"]}
{"id": "C45", "title": "Lazy pipeline evaluation", "statement": "get<S>() evaluates the prerequisites of S before S and S itself, each step at most once over any sequence of get calls between two resets, evaluates nothing which S does not transitively need, and evaluated<S>() and milliseconds<S>() tell exactly which steps were evaluated. A step whose evaluation throws is not marked as evaluated, and its prerequisites are not run again.", "quantifier": "all acyclic graphs of steps, all sequences of get and reset calls, all failures of steps", "why_tests_cant": "graphs and call histories are unbounded", "anchors": ["LitlRun/LitlRun/StepperPipeline.h: StepperPipeline::get, evaluateGet, getMultiple, evaluated, milliseconds, reset"]}
{"id": "C46", "title": "Chronometer accounting", "statement": "After any sequence of start, stop and reset calls, elapsed() is the last offset plus the sum of the increments recorded since, count() is the number of stops since the last reset, last() the last increment, isRunning() tells whether start was called after the last stop or reset; with alternate start and stop each increment is the time between both.", "quantifier": "all sequences of calls, all (monotone) clocks", "why_tests_cant": "histories and clock values are unbounded", "anchors": ["LitlRun/LitlRun/Chronometer.h: Chronometer"]}
{"id": "C47", "title": "Stable Poisson noise is local", "statement": "Applying StablePoissonNoise with the same seed to two containers which agree at some index gives the same noisy value at this index, whatever the other values are.", "quantifier": "all containers, all seeds, all random engines and distributions", "why_tests_cant": "universally quantified over containers; the distribution consumes a value-dependent number of random draws", "anchors": ["LitlContainer/LitlContainer/Random.h: StablePoissonNoise, PoissonNoise"]}
{"id": "C48", "title": "Impulse noise", "statement": "ImpulseNoise returns one of the impulse values or the input; the probability of each value is the given one if they sum to at most one and normalized otherwise; the input is left untouched with the remaining probability.", "quantifier": "all value-probability maps, all draws", "why_tests_cant": "probabilities are real-valued", "anchors": ["LitlContainer/LitlContainer/Random.h: ImpulseNoise::values, weights, operator()"]}
{"id": "C49", "title": "DFT plan shapes and buffers", "statement": "A real DFT of logical shape (n0, n1...) has an output of shape (n0/2+1, n1...), the inverse plan has the same logical shape and swapped buffers, inverting twice gives the shapes back, composing connects the output buffer of a plan to the input of the next one, and the normalization factor is the number of logical pixels, so that normalizing after forward and inverse transforms is consistent.", "quantifier": "all dimensions and shapes, all chains of inverse and compose", "why_tests_cant": "shape arithmetic over all parities and histories of plans", "anchors": ["LitlTransforms/LitlTransforms/Dft.h", "LitlTransforms/LitlTransforms/DftPlan.h", "LitlTransforms/LitlTransforms/DftMemory.h"]}
{"id": "C50", "title": "Text output", "statement": "Streaming a container writes all its elements when there are at most 7, and the first three and last three otherwise, separated and delimited as documented; containers of at most 7 elements which print the same have the same printed elements.", "quantifier": "all sizes and contents", "why_tests_cant": "all sizes", "anchors": ["LitlContainer/LitlContainer/ContiguousContainer.h: operator<<", "LitlTypes/LitlTypes/SeqUtils.h"]}
{"id": "C51", "title": "Segment from front and size", "statement": "Segment::fromSize(front, size) is the segment which starts at front and has size elements: its size() is size and its back() is front + size - 1.", "quantifier": "all fronts, all sizes", "why_tests_cant": "the error vanishes for front = 0, the usual test value", "anchors": ["LitlTypes/LitlTypes/Segment.h: Segment::fromSize", "LitlTransforms/LitlTransforms/LineKernel.h: LineKernel::window"]}
{"id": "C52", "title": "Mathematical functions are element-wise", "statement": "Each in-place mathematical function of a container (unary, with a scalar argument, or with a container argument) replaces each element by the function of the initial element, and of the scalar or of the element of the argument at the same index, even if the scalar is an element of the container; nothing else changes.", "quantifier": "all functions, sizes, contents, scalar arguments aliasing or not", "why_tests_cant": "aliasing and size combinations are unbounded", "anchors": ["LitlContainer/LitlContainer/Math.h: LITL_MATH_UNARY_INPLACE, LITL_MATH_BINARY_INPLACE"]}
{"id": "C53", "title": "Argument serialization", "statement": "serialize(logger, a, b, ...) writes the arguments in order, separated by \", \", without trailing separator.", "quantifier": "all numbers of arguments and values", "why_tests_cant": "variadic: any number of arguments", "anchors": ["LitlTypes/LitlTypes/SeqUtils.h: serialize"]}
{"id": "C54", "title": "Median absolute deviation", "statement": "mad() is the median of the absolute values of the differences between the data and its median; it permutes the internal data only.", "quantifier": "all non-empty data of floating-point type (exact values) or of integer type, all sequences of queries before", "why_tests_cant": "it depends on the order of the data, on the partial sorting left by previous queries and on the parity of the size", "anchors": ["LitlContainer/LitlContainer/DataDistribution.h: DataDistribution::mad"]}
{"id": "C55", "title": "Ball geometry", "statement": "box() is the smallest box which contains the ball, shape() is its shape, and size() is the number of positions of the ball. Shifting a ball by a vector or scalar translates its set of positions, the opposite ball has the opposite positions, and balls are equal iff their radii and centers are.", "quantifier": "all dimensions, radii, centers, norms, shifts", "why_tests_cant": "sets of positions of arbitrary radius and dimension", "anchors": ["LitlRaster/LitlRaster/Ball.h: Ball"]}
{"id": "C56", "title": "Moving data samples", "statement": "Moving DataSamples forward or backward by n elements moves the data pointer by exactly n elements, moves cancel out, and the postfix increment moves its operand and returns its former value.", "quantifier": "all element types, all offsets", "why_tests_cant": "implicit conversions of the offset depend on the element type", "anchors": ["LitlRaster/LitlRaster/Sampling.h: DataSamples::operator+=, operator-=, operator++"]}
{"id": "C57", "title": "Default origin of line kernels", "statement": "A line kernel built from values only has its origin at the center, index size / 2.", "quantifier": "all lists of values and all argument evaluation orders the language allows", "why_tests_cant": "the outcome depends on the compiler", "anchors": ["LitlTransforms/LitlTransforms/LineKernel.h: LineKernel(std::vector<T>)"]}
{"id": "C58", "title": "Equivalence of the iteration styles", "statement": "Nested loops over coordinates in any order, iteration over positions, over indices and over values, operators and generate() compute the same raster, whatever it contained before.", "quantifier": "all operations, all 3D shapes and all contents", "why_tests_cant": "the shapes and contents are unbounded; the benchmark compares durations only, not results", "anchors": ["LitlRun/src/lib/IterationBenchmark.cpp: loopOverXyz, loopOverZyx, iterateOverPositions, iterateOverPositionsOptimized, loopOverIndices, iterateOverValues, callOperator, callGenerate"]}
{"id": "C59", "title": "Limits of integral types and default uniform noise", "statement": "The limits of each integral type bound all of its values, half limits are exact, and the default uniform noise can be added to any value between half limits without overflow.", "quantifier": "all integral types, all values and all drawn values", "why_tests_cant": "the corner cases have probability zero in tests", "anchors": ["LitlTypes/LitlTypes/TypeUtils.h: Limits", "LitlContainer/LitlContainer/Random.h: UniformNoise, RandomGenerator::add"]}
{"id": "C60", "title": "Additive noises are independent of the data and reproducible", "statement": "Whatever the history of calls, the k-th call of a uniform or Gaussian noise draws the k-th value of a sequence which depends on the parameters and seed only; applied to a container, it adds the i-th of these values to the i-th element.", "quantifier": "all distributions, engines, histories of calls, sizes and contents", "why_tests_cant": "histories and contents are unbounded", "anchors": ["LitlContainer/LitlContainer/Random.h: RandomGenerator, UniformNoise, GaussianNoise, ComplexDistribution", "LitlContainer/LitlContainer/DataContainer.h: generate, apply"]}
{"id": "C61", "title": "Rasters are values, and views share pixels", "statement": "In any program of creations, copies, moves, assignments, writes and destructions, a raster which owns its pixels is independent of all other owning rasters: a copy has the same shape and pixels, a move transfers them, and later writes or destructions of one do not affect the other; views see the writes of their source and the reverse, survive moves of the source, and dangle when it is destroyed; the number of pixels always matches the shape.", "quantifier": "all programs (histories of operations), numbers of rasters, shapes and contents", "why_tests_cant": "aliasing and lifetime errors show only for some interleavings of operations, and histories are unbounded", "anchors": ["LitlRaster/LitlRaster/Raster.h: Raster (copy and move constructors and assignments, m_shape)", "LitlContainer/LitlContainer/Holders.h: StdHolder, PtrHolder, moveTo", "LitlContainer/LitlContainer/DataContainer.h: DataContainer"]}
{"id": "C62", "title": "FITS files give back the raster which was written", "statement": "For every shape and content, writing a raster to a FITS file then reading the file gives an equal raster, other files are unchanged, no file is left open, and errors (missing file, existing file, wrong dimension, failing call) are reported to the caller.", "quantifier": "all pixel types, dimensions, shapes, contents, initial files, histories of calls, and patterns of failures of the underlying library", "why_tests_cant": "the unit test writes one raster of char to one new file; failures can occur at any call and histories are unbounded", "anchors": ["LitlIo/LitlIo/Fits.h: Fits::read, Fits::write", "LitlRaster/LitlRaster/Vector.h: Vector(dim)"]}
{"id": "C63", "title": "Two-dimensional correlation with one-dimensional kernels", "statement": "Correlating a raster in two dimensions with a one-dimensional kernel applies the kernel along the rows then along the columns, with zeros around the raster; the sampled variant gives the values of that result at the samples only.", "quantifier": "all rasters, pixel types, kernels, origins, samplings", "why_tests_cant": "depends on the interplay of the raster size, pixel type, kernel size and sampling", "anchors": ["LitlTransforms/LitlTransforms/Convolution.h: Kernel1d::correlate2dTo", "LitlTransforms/LitlTransforms/Convolution.h: Kernel1d::sparseCorrelate2dTo", "LitlRaster/LitlRaster/Sampling.h: DataSamples::operator+="]}
{"id": "C64", "title": "Linear interpolation of doubles", "statement": "Linear interpolation of a raster of doubles is exact for constants and never leaves the interval of the pixel values, in spite of rounding, in any dimension.", "quantifier": "every dimension, every position, every assignment of finite doubles to pixels", "why_tests_cant": "The claim holds or fails by one unit in the last place, for specific combinations among 2^192 triples of doubles.", "anchors": ["LitlTransforms/LitlTransforms/InterpolationMethods.h: Linear::at", "LitlTypes/LitlTypes/TypeUtils.h: floor"]}
{"id": "C65", "title": "Cubic and nearest-neighbour interpolation of doubles", "statement": "Cubic interpolation reproduces constants; nearest-neighbour interpolation selects the nearest index, for every double.", "quantifier": "every dimension, every position, every constant", "why_tests_cant": "A wrong index is selected for a single double; constants are wrong in the last digit for some values only.", "anchors": ["LitlTransforms/LitlTransforms/InterpolationMethods.h: Cubic::at, NearestNeighbor::at"]}
{"id": "C66", "title": "Ramps of doubles", "statement": "linspace(min, max) has exactly min and max as first and last values, and its values are ordered between them; range(min, step) has exact steps up to the rounding of each sum.", "quantifier": "every container size, every bounds and step", "why_tests_cant": "Rounding effects depend on the size and bounds; overflow and subnormal steps are rare.", "anchors": ["LitlContainer/LitlContainer/DataContainer.h: linspace, range"]}
{"id": "C67", "title": "Mean of doubles", "statement": "The mean of a distribution of doubles is between its smallest and largest values, and is the rounded exact mean when sums are exact.", "quantifier": "every distribution of doubles", "why_tests_cant": "Rounding of the sum depends on values and order.", "anchors": ["LitlContainer/LitlContainer/DataDistribution.h: mean, sum"]}
{"id": "C68", "title": "Matrices", "statement": "The identity has ones on its diagonal and zeros elsewhere, the diagonal matrix has the given values on its diagonal and zeros elsewhere, and a copy of a matrix is an independent matrix with the same elements, in its elements as well as in its determinant.", "quantifier": "all numbers of rows and columns, all lists of values, all elements", "why_tests_cant": "The diagonal is written through a stride which is right for some shapes only; aliasing shows up after later writes.", "anchors": ["LitlRaster/LitlRaster/Matrix.h: Matrix, identity, diagonal, determinant"]}
{"id": "C69", "title": "Error messages", "statement": "The message of an exception is its prefix and message, followed by one line for each appended line, indented as requested. A value is rejected if and only if it is not within the bounds, and the message tells the name, the value and the bounds. A size is rejected if and only if it is not the expected one, and the message tells both.", "quantifier": "all texts, histories of appended lines, values, bounds and sizes, including NaN", "why_tests_cant": "The number of appended lines is unbounded, and special values are rarely tested.", "anchors": ["LitlTypes/LitlTypes/Exceptions.h: Exception, OutOfBoundsError", "LitlContainer/LitlContainer/DataContainer.h: at", "LitlContainer/LitlContainer/Holders.h: SizeError"]}
{"id": "C70", "title": "Sequence utilities do not depend on unspecified orders", "statement": "Applying a function to the elements pointed by several iterators passes the elements in the order of the iterators and increments each of them once, transforming a sequence gives the images in order, and hence generating a container from others gives the same result, whatever the order in which the compiler evaluates arguments and the standard library visits elements. Serializing writes the arguments in order with commas in between.", "quantifier": "all orders of evaluation, all numbers of iterators, all sequences and functions", "why_tests_cant": "A test sees the orders of one compiler and one standard library.", "anchors": ["LitlTypes/LitlTypes/SeqUtils.h: iteratorTupleApply, seqTransform, serialize", "LitlContainer/LitlContainer/DataContainer.h: generate"]}
{"id": "C71", "title": "Program options", "statement": "After any sequence of command lines, the value of an option is the given one, else its default value; an option is said to be set if and only if it was given; a command line which throws changes nothing; copies of the options are independent.", "quantifier": "all declarations, all histories of command lines", "why_tests_cant": "The result depends on the whole history of parses, failed ones included.", "anchors": ["LitlRun/LitlRun/ProgramOptions.h: ProgramOptions, parse, has, as"]}
{"id": "C72", "title": "Integers of bounded width", "statement": "Pixel-wise operators on containers of integers of any width give the exact results reduced modulo the number of values of the pixel type, and the exact ones when representable; unsigned arithmetic never is undefined; += and -= are inverse of each other in spite of wraparounds; range(min, step) is defined whenever its elements are representable.", "quantifier": "all integral types but bool, all operators, all contents of memory, all sizes", "why_tests_cant": "Overflow depends on the pixel values and on the integral promotions of each type; undefined behaviour is not observable by a test.", "anchors": ["LitlContainer/LitlContainer/Arithmetic.h: LITL_VECTOR_OPERATOR_INPLACE, LITL_SCALAR_OPERATOR_INPLACE", "LitlContainer/LitlContainer/DataContainer.h: range"]}
{"id": "C73", "title": "Scaling integral pixels by a real number", "statement": "An operator between a container of integers and a floating-point scalar gives, for each pixel, the integral part of the result of the operation on numbers, as in the example of the documentation which scales the channels of an RGB image.", "quantifier": "all integral types, all scalars, all operators, all contents", "why_tests_cant": "The result has to be compared with real arithmetic for every scalar; the example of the documentation prints the result and checks nothing.", "anchors": ["LitlContainer/LitlContainer/Arithmetic.h: LITL_SCALAR_OPERATOR_INPLACE", "doc/channels.dox", "LitlDemo/tests/src/LitlDemoChannels_test.cpp: color_along_2_test"]}
{"id": "C74", "title": "Equivalent traversals", "statement": "The loops over coordinates, over the domain, over indices and over iterators, the range for loop and the algorithms all apply an update once to each pixel, whatever the shape, the dimension (fixed or given at run-time) and the update, and hence give the same raster.", "quantifier": "all shapes with zero lengths included, all dimensions, all pixel types and updates", "why_tests_cant": "The documentation presents the loops as equivalent and tests run them on one small 3D raster.", "anchors": ["doc/primer.dox", "LitlDemo/tests/src/LitlDemoBasics_test.cpp: pixel loops", "LitlRaster/LitlRaster/Raster.h: domain, operator[]"]}
{"id": "C75", "title": "Formulae, generate() and apply()", "statement": "A formula made of containers and scalars gives, at each pixel, the formula of the pixels, and generate() or apply() with the function of the formula give the same values, operands being unchanged.", "quantifier": "all formulae, sizes, contents of memory, pixel types and arithmetics; integers of any width", "why_tests_cant": "The equivalence holds for every formula and depends on the rounding or wraparound of each intermediate result.", "anchors": ["doc/pixelwise.dox", "LitlContainer/LitlContainer/DataContainer.h: generate, apply", "LitlContainer/LitlContainer/Arithmetic.h"]}
{"id": "C76", "title": "Channels", "statement": "Looping by steps of c over an image whose first axis holds c channels visits the channels of each pixel once, as an image of structures would with the same memory layout; a weighted sum along the first axis gives the weighted sum of the channels of each pixel; updating a section along the last axis updates this channel only.", "quantifier": "all shapes, numbers of channels, functions, weights and arithmetics", "why_tests_cant": "The documented idioms are demonstrated on constant images only, and hence a mix-up of channels or pixels is invisible.", "anchors": ["doc/channels.dox", "LitlDemo/tests/src/LitlDemoChannels_test.cpp", "LitlRaster/LitlRaster/Raster.h: begin, end, section"]}
{"id": "C77", "title": "RGB to HSV conversion", "statement": "The demonstrated conversion of any RGB color gives a hue in [0, 360), a saturation and a value in [0, 1], equal to the textbook ones.", "quantifier": "all colors", "why_tests_cant": "The demonstration converts turquoise only.", "anchors": ["LitlDemo/tests/src/LitlDemoChannels_test.cpp: rgbToHsv", "doc/channels.dox"]}
{"id": "C78", "title": "Differentiation filters", "statement": "Prewitt, Sobel and Scharr kernels along any axes differentiate along the first axis and average along the others: away from the borders, the response to an affine image is its slope, up to the factor of the filter, and it is positive for sign = 1 when the image increases along the axis.", "quantifier": "all shapes, axes, signs and affine images; all images for the values of the kernel", "why_tests_cant": "Unit tests apply the Sobel kernel to a constant image.", "anchors": ["LitlTransforms/LitlTransforms/SeparableKernel.h: prewitt, sobel, scharr"]}
{"id": "C79", "title": "The output of a transform is the Fourier transform of the image, pixel by pixel", "statement": "In exact arithmetic, and for lengths which fit in int, the raster written by a real or complex transform plan, or returned by realDft, complexDft, inverseRealDft and inverseComplexDft, contains at each position the N-dimensional discrete Fourier transform (or its inverse, divided by the number of pixels for the functions) of the input raster as indexed by positions: axes are not swapped nor mirrored, and real transforms hold the frequencies 0 to n/2 of the first axis. The direct and inverse functions undo each other.", "quantifier": "All dimensions and shapes (even and odd lengths), all pixel values, all histories of plan creations, inversions, compositions and transforms, all FFTW implementations which comply with FFTW's documentation (row-major arrays, unnormalized transforms)", "why_tests_cant": "The only test makes one round trip on a 5x6 image, which succeeds whatever the order of axes; no coefficient is compared to its definition", "anchors": ["LitlTransforms/LitlTransforms/Dft.h: fftwShape, outShape, allocateFftwPlan, complexDft, inverseComplexDft, realDft, inverseRealDft", "LitlTransforms/LitlTransforms/DftPlan.h: DftPlan::transform, normalize, inverse, compose"]}
{"id": "C80", "title": "Filtering in Fourier domain is a circular convolution", "statement": "The documented use of a plan and its inverse (construct both, fill the input, transform, multiply by the coefficients of a kernel, inverse transform, normalize) gives, in exact arithmetic, the circular convolution of the image by the kernel at each position, which is the usual convolution if both have sufficient margins; the result of real plans is real, and no other buffer is modified.", "quantifier": "All dimensions and shapes with lengths which fit in int, all images and kernels, real and complex plans, all garbage left by FFTW in buffers, all FFTW implementations which comply with FFTW's documentation", "why_tests_cant": "No test filters in Fourier domain", "anchors": ["LitlTransforms/LitlTransforms/DftPlan.h: DftPlan (documentation), inverse, transform, normalize", "LitlTransforms/LitlTransforms/Dft.h: realDft, complexDft"]}
{"id": "C81", "title": "The resources of DFT plans are freed exactly once", "statement": "Whatever the sequence of creations, inversions, compositions, moves, assignments, transforms and destructions of DFT plans and rasters, each FFTW plan is held by at most one object and is destroyed with it, each data buffer is freed once, nothing is destroyed twice or used after destruction by moves and destructors, and nothing remains once all the objects are gone; in particular, a call to realDft, complexDft and their inverses returns a raster which owns its data and leaves nothing else behind.", "quantifier": "All histories of operations on any number of plans and rasters, all shapes, all outcomes of malloc and of FFTW's planner (including failures)", "why_tests_cant": "Leaks and double destructions are invisible to assertions on pixel values, and the only test makes one plan and its inverse", "anchors": ["LitlTransforms/LitlTransforms/DftPlan.h: DftPlan, ~DftPlan, inverse, compose", "LitlTransforms/LitlTransforms/DftMemory.h: FftwAllocator::createPlan, destroyPlan", "LitlTransforms/LitlTransforms/Dft.h: complexDft, inverseComplexDft, realDft, inverseRealDft", "LitlContainer/LitlContainer/AlignedBuffer.h: AlignedBuffer"]}
{"id": "C82", "title": "transform() goes from in() to out() as long as the plan is in scope", "statement": "For every plan in scope, transform() reads exactly the current content of in() and writes exactly out(), after any sequence of operations, including moves and assignments to in() as in the documented example; a plan can be used until its destruction, and an inverse plan as long as the direct plan which owns the buffers is in scope.", "quantifier": "All histories of operations on any number of plans and rasters, all shapes whose buffers fit in memory, all addresses returned by malloc", "why_tests_cant": "A test observes a few addresses and one sequence of operations; reading a stale buffer may give plausible values", "anchors": ["LitlTransforms/LitlTransforms/DftPlan.h: DftPlan::transform, in, out, inverse", "LitlTransforms/LitlTransforms/DftMemory.h: FftwAllocator", "LitlContainer/LitlContainer/AlignedBuffer.h: AlignedBuffer::operator="]}
{"id": "C83", "title": "The documented derivation in Fourier domain gives the derivative", "statement": "For a signal of n samples over a period of a trigonometric polynomial of degree less than n / 2, transforming with realDft (or a RealDft plan), multiplying coefficient k by i k and transforming back with inverseRealDft (or the inverse plan, normalized) gives, in exact arithmetic, the n samples of the derivative; with plans, the result is in the input raster of the direct plan and no other raster is modified.", "quantifier": "All lengths n which fit in int, even and odd, all degrees less than n / 2 and all amplitudes, all garbage in the buffers, all FFTW implementations which comply with FFTW's documentation", "why_tests_cant": "The demo tests derive one sine of 360 samples with a tolerance of 0.001; the role of the frequencies above 1, of odd lengths and of the bound on the degree is not tested", "anchors": ["doc/dft.dox: TL;DR", "LitlDemo/tests/src/LitlDemoDft_test.cpp: verbose_derivative_test, concise_derivative_test", "LitlTransforms/LitlTransforms/Dft.h: realDft, inverseRealDft"]}
{"id": "C84", "title": "Correlations have no effect but their result", "statement": "Applying a separable kernel, or a Kernel1d along an axis, on samples or in two dimensions, computes the output pixels and nothing else: it writes nothing to the standard output, and is defined whatever the type of the pixels.", "quantifier": "All kernels, rasters, samplings and types of pixels (integers of any width and floating-point numbers)", "why_tests_cant": "Tests do not look at the standard output, and a mismatch between a printf conversion and the type of its argument goes unnoticed", "anchors": ["LitlTransforms/LitlTransforms/SeparableKernel.h: operator*, correlateTo, correlateAlongSeqTo", "LitlTransforms/LitlTransforms/Convolution.h: sparseCorrelate1dTo, correlateAlong, sparseCorrelate2dTo"]}
{"id": "C85", "title": "Correlations give the weighted sums of pixels, whatever the types", "statement": "Applying a separable kernel to a raster gives, at each pixel, the sum of the products of the kernel values and pixels, converted to the type of the kernel values, whatever the types of the kernel values and pixels.", "quantifier": "All kernels, rasters and axes, all integral types of kernel values and pixels, and floating-point pixels with an integral kernel", "why_tests_cant": "Tests use one type and small values; the result depends on where each partial sum is converted and on which type the arithmetic is made in", "anchors": ["LitlTransforms/LitlTransforms/LineKernel.h: LineKernel::correlate", "LitlTransforms/LitlTransforms/SeparableKernel.h: operator*, correlateAlong"]}
{"id": "C86", "title": "Quantiles of floating-point values are accurate, and exact where possible", "statement": "The quantile of sorted doubles is finite for every argument between 0 and 1, is the exact minimum, maximum or middle value where it should be, and is between the extreme values; the median of an even number of values is the double nearest to the middle of the two middle values.", "quantifier": "All non-empty sequences of at most 2^53 finite doubles, up to the largest ones, and all arguments which are doubles", "why_tests_cant": "Tests use a few small values for which no operation rounds; overflow, underflow and rounding happen for particular values and arguments only", "anchors": ["LitlContainer/LitlContainer/DataDistribution.h: DataDistribution::quantile, DataDistribution::median, DataDistribution::nth"]}
{"id": "C87", "title": "Correlations of floating-point rasters are accurate", "statement": "Correlating a raster of doubles with line kernels of doubles along one or several axes gives finite pixels which differ from the exact correlation by no more than a bound known in advance from the kernel values and the largest pixel; the result is exact for integers; with a non-negative kernel, brighter images have brighter responses; and it does not depend on the order of the axes or on mirroring.", "quantifier": "All shapes and dimensions, all finite pixels and kernel values whose responses are at most 2^1022, kernels of less than 2^26 values, and any number of successive axes", "why_tests_cant": "Tests compare a few small integral values, for which no operation rounds; rounding errors accumulate with the size of the kernel and the number of axes", "anchors": ["LitlTransforms/LitlTransforms/LineKernel.h: LineKernel::correlate", "LitlTransforms/LitlTransforms/SeparableKernel.h: SeparableKernel::operator*, SeparableKernel::correlateAlong"]}
{"id": "C88", "title": "Impulse noise does not depend on the rounding of the probabilities", "statement": "Impulse noise is built from probabilities of type double. If they sum to less than one, each value is drawn with its probability and the input is kept with the remaining one, up to the rounding errors; if they are the doubles nearest to numbers which sum to exactly one, however these are rounded, the input is never kept; if they sum to more than one, they are normalized and the input is never kept. Applied to a container, each element becomes one of the values or is kept.", "quantifier": "All maps of less than 2^50 values, with all finite non-negative probabilities, all containers and all sequences of draws", "why_tests_cant": "Tests use a couple of probabilities; whether a residue such as 1 - 0.1 - 0.3 - 0.6 = 1e-16 counts as a probability of keeping the input depends on all of them", "anchors": ["LitlContainer/LitlContainer/Random.h: ImpulseNoise::weights, ImpulseNoise::distribution, ImpulseNoise::operator()"]}
{"id": "C89", "title": "Noises of another type than the pixels", "statement": "A noise generator may be applied to a container whose elements have another type, provided that its output can be converted to the elements' type: the elements become the noised ones, and impulse noise leaves untouched the elements for which no impulse is drawn.", "quantifier": "All containers, all noise generators as stateful functions, integral types of at most 64 bits against doubles, in both directions", "why_tests_cant": "The example of the documentation prints its result without checking it; which elements are changed depends on the draws", "anchors": ["LitlContainer/LitlContainer/DataContainer.h: generate(), apply()", "LitlContainer/LitlContainer/Random.h: operator()(T)", "doc/random.dox"]}
{"id": "C90", "title": "Iterators over regions are independent values", "statement": "An iterator over a box, a ball or a subraster moves by one position in the order of iteration each time it is incremented, and only then: whatever is done to other iterators, including its copies and the one it was copied from, does not move it, invalidate it, or change where it goes next, as long as the region lives and is not modified. The postfix increment returns where the iterator was before it moved.", "quantifier": "All boxes, balls and subrasters, all histories of creations, copies, increments, resets, assignments to regions, and destructions", "why_tests_cant": "Tests iterate once, with the iterators of a range-based loop; whether a copy is usable depends on the whole history of its source, and a dangling reference often works by chance", "anchors": ["LitlRaster/LitlRaster/BoxIterator.h: Box::Iterator", "LitlRaster/LitlRaster/BallIterator.h: BallTraits::Iterator", "LitlRaster/LitlRaster/SubrasterIterator.h: Subraster::Iterator"]}
{"id": "C91", "title": "Means and ramps of floating-point values are accurate", "statement": "The mean of finite doubles is the exact mean, up to one rounding error per element relatively to the mean of the absolute values, and is finite. The i-th value of range(min, step) is min + i step up to i rounding errors. The i-th of n values of linspace(min, max) is min + i (max - min) / (n - 1) up to a few rounding errors, whatever i and n, and the last one is exactly max.", "quantifier": "All containers of finite doubles, up to 2^52 elements; all bounds and steps far from the largest double, increasing or not", "why_tests_cant": "Rounding errors depend on the values and accumulate with their number; tests compare a few ramps of small integers", "anchors": ["LitlContainer/LitlContainer/DataDistribution.h: mean()", "LitlContainer/LitlContainer/DataContainer.h: range(), linspace()"]}
{"id": "C92", "title": "Aligned buffers keep their elements, and owners do not share them", "statement": "A copy of an aligned buffer or raster which owns its data has equal elements, in memory of its own; writing an element of an owner is defined and changes no element of another owner; moves keep the elements and their address; no operation changes or invalidates an element which can be read, but resetting, destroying or freeing the block where it is, after which all the buffers which share it dangle; copies of rasters are independent.", "quantifier": "All histories of constructions, copies, moves, assignments, releases, resets, destructions and writes, all outcomes of the allocations, all element sizes, shared or owned data", "why_tests_cant": "The independence of buffers depends on who owns what after the whole history, and failing allocations are out of reach of tests", "anchors": ["LitlContainer/LitlContainer/AlignedBuffer.h: AlignedBuffer", "LitlRaster/LitlRaster/Raster.h: AlignedRaster"]}
{"id": "C93", "title": "Filters follow their images", "statement": "Median filters and correlations with separable kernels give the same result where the neighbors are the same, wherever the pixel is and whatever the sizes of the images; median filters and non-negative kernels preserve the order of images; median filters commute with increasing functions of the values and stay within the bounds of the neighbors; where the image is constant, a kernel multiplies it by the product of the sums of its line kernels.", "quantifier": "All images, shapes, regions, translations, windows and kernels, all outcomes of the partial sorts", "why_tests_cant": "They relate the runs on two arbitrary images", "anchors": ["LitlTransforms/LitlTransforms/MedianFilter.h: MedianFilter", "LitlTransforms/LitlTransforms/SeparableKernel.h: SeparableKernel::apply"]}
{"id": "C94", "title": "Exceptions in pixel-wise functions and operators", "statement": "If a function given to generate() or apply(), or an operator of the pixel type, throws for some element, then the exception is propagated, the elements already computed are written and nothing else changed; operators which return a new container leave their operands as they were; generate() can be called again as if the interrupted call had not been made.", "quantifier": "All containers, arguments, aliases, stateful functions, elements for which they throw, orders of the calls in std::transform", "why_tests_cant": "The interruption may come at any element, in any order of evaluation", "anchors": ["LitlContainer/LitlContainer/DataContainer.h: generate, apply", "LitlContainer/LitlContainer/Arithmetic.h: ArithmeticMixin", "LitlContainer/LitlContainer/Math.h: MathFunctionsMixin"]}
{"id": "C95", "title": "Identities between transforms of related images", "statement": "In exact arithmetic and for lengths which fit in int: the transform functions are linear; realDft of an image is the first half of its complexDft, and the missing coefficients are conjugates of those it holds; moving an image circularly multiplies its coefficients by phases; the first coefficient is the sum of the pixels; the squared moduli of the coefficients sum up to those of the pixels times the number of pixels (coefficients of realDft which stand for two count twice); inverseComplexDft is complexDft between conjugations; complexDft applied twice reverses the image.", "quantifier": "All dimensions and shapes (even and odd lengths), all pixel values, factors and displacements, all contents of the allocated buffers, all FFTW implementations which comply with FFTW's documentation", "why_tests_cant": "The identities relate the outputs of several calls for all values; tests compare a few values up to a tolerance", "anchors": ["LitlTransforms/LitlTransforms/Dft.h: fftwShape, outShape, allocateFftwPlan, complexDft, inverseComplexDft, realDft, inverseRealDft", "LitlTransforms/LitlTransforms/DftPlan.h: DftPlan::transform, normalize, inverse, compose"]}
{"id": "C96", "title": "Pixels which are not numbers", "statement": "Rasters of doubles may hold infinities and NaN. Comparisons order numbers and infinities; NaN is neither less than nor equal to anything. min(), max() and minmax() give the extremal elements if there is no NaN, and are undefined if there is one together with two different numbers. Two rasters are equal if and only if they have the same shape and numbers, so a raster equals itself if and only if it has no NaN. The mean of values with a NaN is NaN. Linear and cubic interpolation is NaN if one of the 2^n or 4^n pixels around is. Separable filters give NaN at each pixel whose window contains one, and pixels outside of the window have no influence.", "quantifier": "All dimensions, shapes, kernels, pixel values (with infinities, NaN, signed zeros and subnormal numbers) and positions", "why_tests_cant": "Where NaN spread to depends on the positions of all pixels, and undefined comparisons usually give plausible results; tests only use numbers", "anchors": ["LitlContainer/LitlContainer/DataContainer.h: min, max, minmax", "LitlRaster/LitlRaster/Raster.h: operator==", "LitlContainer/LitlContainer/DataDistribution.h: mean", "LitlTransforms/LitlTransforms/InterpolationMethods.h: Linear, Cubic", "LitlTransforms/LitlTransforms/SeparableKernel.h: correlateTo"]}
{"id": "C97", "title": "Statistics of integers of bounded width", "statement": "A distribution can be built from integers of any type, sum() is their sum, mean() their mean, and mad() and the median filter compute with differences and sums of values without overflow: for each type, the values for which this holds are known, and elsewhere the sums are reduced modulo the number of values of the type or the behaviour is undefined.", "quantifier": "All integral types (signedness and width), all sequences of values of the type, all evaluation orders of the operands for mad()", "why_tests_cant": "Overflows depend on the values, their number and their order; tests use small values, and undefined overflows usually go unnoticed when the sums are not queried", "anchors": ["LitlContainer/LitlContainer/DataDistribution.h: DataDistribution, sum, mean, mad", "LitlContainer/LitlContainer/DataContainer.h: distribution", "LitlTransforms/LitlTransforms/MedianFilter.h: median"]}
{"id": "C98", "title": "Transforms over buffers of the caller", "statement": "A transform plan can be built over buffers which the caller owns, including a single buffer for the input and the output, as soon as each buffer holds the corresponding raster. Filling in(), transforming and reading out() gives the transform of the input; the inverse plan, which shares the buffers, then gives the input back after normalization. Nothing is written outside of the buffers.", "quantifier": "All shapes, transforms, buffer positions in the memory of the caller (same, disjoint or overlapping), memory contents, and all values FFTW may leave in the parts of the buffers it does not define", "why_tests_cant": "The tests let the plans allocate distinct buffers; in-place layouts only matter beyond the first row and out of bounds accesses usually go unnoticed", "anchors": ["LitlTransforms/LitlTransforms/DftPlan.h: DftPlan, inverse, in, out, transform, normalize", "LitlTransforms/LitlTransforms/Dft.h: RealDftTransform, InverseRealDftTransform, ComplexDftTransform", "LitlTransforms/LitlTransforms/DftMemory.h: createPlan"]}
{"id": "C99", "title": "Mathematical functions of integer rasters", "statement": "Over rasters of integers, the mathematical functions are those of the integers, in place and as new instances: floor(), ceil(), trunc() and round() change nothing, abs() gives absolute values, sqrt() integer square roots, fmod() the remainders of operator %, fdim() the positive differences and logb() the position of the leading bit. Nothing but the elements of the container changes. Where a result is not a value of the type, the behaviour is undefined.", "quantifier": "All integral types of 8, 16, or 32 to 64 bits, sizes, addresses, contents, and all implementations of the functions of <cmath> which follow ISO C and IEEE 754", "why_tests_cant": "Elements are converted to double and back: differences show only beyond 2^52, at the least values of types, at zero divisors or at negative roots, and undefined conversions usually go unnoticed", "anchors": ["LitlContainer/LitlContainer/Math.h: MathFunctionsMixin: abs, floor, ceil, trunc, round, sqrt, fmod, fdim, logb", "LitlContainer/LitlContainer/Math.h: LITL_MATH_UNARY_NEWINSTANCE, LITL_MATH_BINARY_NEWINSTANCE"]}
{"id": "C100", "title": "Accuracy of the interpolation of doubles", "statement": "The value interpolated in a raster of doubles is that of the exact weighted sum of the pixels around the position, up to a bound which is proportional to the dimension and to the magnitude of the pixels: rounding cannot accumulate further, at any position. In particular, the cubic interpolation of an affine image gives back the value of the affine function.", "quantifier": "All dimensions, images of doubles, magnitudes of pixels without overflow, and positions, negative ones included", "why_tests_cant": "Tests compare a few positions with a tolerance; the accumulation of roundings over axes, the cancellations and the positions just below an integer are not sampled", "anchors": ["LitlTransforms/LitlTransforms/InterpolationMethods.h: Linear::at", "LitlTransforms/LitlTransforms/InterpolationMethods.h: Cubic::at", "LitlTypes/LitlTypes/TypeUtils.h: floor"]}
{"id": "C101", "title": "Limits of floating-point types and default uniform noise", "statement": "The limits of each floating-point type bound all of its finite values, half limits are exact, the epsilon is the difference between consecutive values, the almost-limits are next to the limits, and the default uniform noise can be drawn, and added to any value between half limits, without overflow.", "quantifier": "All binary floating-point formats (float, double, long double), all values and all drawn values", "why_tests_cant": "The sums which might overflow have negligible probability, and absorbed epsilons go unnoticed", "anchors": ["LitlTypes/LitlTypes/TypeUtils.h: Limits", "LitlContainer/LitlContainer/Random.h: UniformNoise, RandomGenerator::add"]}
{"id": "C102", "title": "Ownership of pixels by rasters over arrays", "statement": "An ArrRaster is a value: its pixels are its own, copies and moves copy them, assignments (to itself too) replace them in place so that views on it remain valid and read the new pixels, and views dangle only once it is destroyed. Its size is that of its shape.", "quantifier": "All programs of constructions, views, copies, moves, assignments, writes and destructions of rasters over std::array", "why_tests_cant": "Aliasing and lifetime defects show only in some histories, and often read plausible values", "anchors": ["LitlRaster/LitlRaster/Raster.h: ArrRaster, Raster", "LitlContainer/LitlContainer/Holders.h: StdHolder<std::array>"]}
{"id": "C103", "title": "Median filters from any type of pixels to any type of pixels", "statement": "Whatever the types of the input and output pixels, a median filter with an odd number of neighbors writes, at each pixel of the region, the middle value of the window converted to the output type, and nothing else: for doubles, a value of the image, unchanged; for integers written as doubles or as wider integers, what filtering the converted image gives. The filter of a constant image is constant. The result depends only on the image.", "quantifier": "All images, windows, regions and pixel types with a conversion (in particular integers of any width and doubles, including infinities, NaN and signed zeros), all results of std::nth_element allowed by the standard", "why_tests_cant": "The result of std::nth_element is not specified but by its postcondition, and overflows, NaN and signed zeros only matter for some images", "anchors": ["LitlTransforms/LitlTransforms/MedianFilter.h: apply, applyTo, median"]}
{"id": "C104", "title": "Median filters applied region by region, by any number of threads", "statement": "An image can be filtered by regions which do not overlap, one call each, in any order or concurrently: with an odd number of neighbors, the output is that of a single call on the whole, whatever the schedule. Different calls never write the same pixel. If the execution stops at any moment, each pixel has its initial value or its final one. The output may be the input.", "quantifier": "All images, windows and sets of disjoint regions, all interleavings of the calls, all moments of them, all results of std::nth_element allowed by the standard", "why_tests_cant": "There are too many interleavings, and a test sees the one which the scheduler chose", "anchors": ["LitlTransforms/LitlTransforms/MedianFilter.h: applyTo"]}
{"id": "C105", "title": "Threads which modify disjoint regions of a raster", "statement": "Threads which each modify, pixel by pixel with a function, a non-empty region of one raster through its own subraster, slice or section (the latter for rasters of fixed dimension) do not interfere if the regions are disjoint: there is no data race, every schedule ends, and each pixel of a region becomes the function of its value, while the others do not change. At any moment, each pixel has its initial value or its final one. If two regions have a common pixel, some schedules have a data race.", "quantifier": "All rasters, dimensions, sets of valid regions, kinds of views and functions; all interleavings of the reads and writes, and all moments of them", "why_tests_cant": "There are too many interleavings, and a data race may have no visible effect in a test", "anchors": ["LitlRaster/LitlRaster/Subraster.h: Subraster", "LitlRaster/LitlRaster/SubrasterIterator.h: Iterator", "LitlRaster/LitlRaster/Raster.h: slice, section", "LitlContainer/LitlContainer/DataContainer.h: apply"]}
{"id": "C106", "title": "Conversion of colors to HSV in double precision", "statement": "With the roundings of double precision, the demonstrated conversion of a color with components from 0 to 255, not all equal, gives a hue in [0, 360), a saturation and a value in (0, 1], within 2^-31 degrees, 2^-41 and 2^-51 of the exact ones. The value is 1 exactly if a component is 255, the saturation is 1 exactly if a component is 0, the hue is 0 exactly for the shades of red, and no rounding turns a color into a grey or conversely. The hue is not the nearest double of the exact one in general, e.g. not 120 for a dark pure green.", "quantifier": "All the colors", "why_tests_cant": "A test compares a few colors, where the roundings cancel out or are hidden by a tolerance", "anchors": ["LitlDemo/tests/src/LitlDemoChannels_test.cpp: rgbToHsv, Hsv"]}
{"id": "C107", "title": "Quantiles and median absolute deviation of unsorted doubles", "statement": "Whatever the order of finite doubles and the former queries of their distribution, a quantile from 0 to 1 is defined and has the value of the quantile of the sorted data, and the data are only reordered. The median absolute deviation is finite and not negative, is the double which is the nearest to the exact one for an odd number of values, is within 12 x 2^-53 M + 2^-1071 of it if no absolute value exceeds M <= 2^1021, and is null for equal values.", "quantifier": "All the finite values, at most 2^53, all the sequences of queries, all the results of std::nth_element and std::sort, both orders of evaluation in which each reference is read before the other is requested", "why_tests_cant": "The partial order left by std::nth_element depends on the library and on the former queries, and errors depend on the values", "anchors": ["LitlContainer/LitlContainer/DataDistribution.h: nth, median, mad, quantile"]}
{"id": "C108", "title": "Regions modified by their own parts", "statement": "Shifting a box or a ball by a position, growing or shrinking a box by a margin, and adding a scalar to all the coordinates give the same result whether the operand is a separate object or a part of the modified region; nothing else changes. A new shifted box leaves its operands unchanged.", "quantifier": "All the boxes and balls of any dimension, all the operands, be they separate, the front, the back, the center or a coordinate of the region, or the region itself", "why_tests_cant": "Whether an operand is part of the region is a property of the call, and aliased calls are not tested", "anchors": ["LitlRaster/LitlRaster/Box.h: operator+=, operator-=", "LitlRaster/LitlRaster/Ball.h: operator+=, operator-="]}
{"id": "C109", "title": "Filters applied in place", "statement": "Applying a median filter or a line kernel to a raster which is also the output gives the same result as with another output, and the pixels out of the region do not change.", "quantifier": "All the windows of odd size, regions, rasters and decorations of them, all the line kernels and samples", "why_tests_cant": "Depends on the order of the pixels and on the shape of the window; tests use separate outputs", "anchors": ["LitlTransforms/LitlTransforms/MedianFilter.h: applyTo", "LitlTransforms/LitlTransforms/LineKernel.h: correlate"]}
{"id": "C110", "title": "Decorated rasters are read as they are now", "statement": "Extrapolators and interpolators, and copies of them, read the decorated raster as it is when they are used, whatever was done to it and to other objects since they were made, and can be used as long as that raster lives; a reference returned by their subscript operator can be used as long.", "quantifier": "All the histories of creations, copies, pixel and whole assignments and destructions of rasters and decorators, all the methods and positions", "why_tests_cant": "Depends on the lifetimes and on the history of all the objects; reads of destroyed objects are undefined behaviour, which tests may not notice", "anchors": ["LitlTransforms/LitlTransforms/Interpolation.h: Extrapolator, Interpolator, extrapolate, interpolate", "LitlTransforms/LitlTransforms/InterpolationMethods.h: OutOfBoundsConstant"]}
{"id": "C111", "title": "Steps of a pipeline may use the pipeline", "statement": "When the evaluation of a step itself asks the pipeline for other steps (and catches their exceptions or not) or resets the pipeline, each step still begins only once all those it needs are evaluated, is not evaluated again unless it threw or the pipeline was reset, and whenever a value is returned, the step and all those it needs are known as evaluated.", "quantifier": "All the graphs of prerequisites, bodies of steps as trees of uses of the pipeline, exceptions and sequences of calls", "why_tests_cant": "Depends on what user-defined steps do, on the whole history and on the nesting of calls", "anchors": ["LitlRun/LitlRun/StepperPipeline.h: get, evaluateGet, evaluated, milliseconds, reset"]}
{"id": "C112", "title": "Pipelines used by several threads", "statement": "Several threads may ask the same pipeline for steps at the same time: there is no data race, each step is evaluated at most once, after those it needs, and each thread is returned the values of the steps it asked for.", "quantifier": "All the graphs of prerequisites, numbers of threads, requests and interleavings of the accesses to the shared pipeline", "why_tests_cant": "Depends on the interleaving of threads; races may not show in tests", "anchors": ["LitlRun/LitlRun/StepperPipeline.h: get, evaluateGet, evaluated"]}
{"id": "C113", "title": "ND kernels of any types", "statement": "The correlation with an ND kernel is the weighted sum of the pixels of the window whatever the types of the kernel and of the pixels: exact modulo 2^bits for integers, up to rounding for doubles, truncated once if the sum is converted; and the same in the borders as elsewhere.", "quantifier": "All the types of kernels and pixels, shapes, windows containing the origin which fit in the raster, values, pixels and extrapolations", "why_tests_cant": "Depends on each type, and on the values of the partial sums", "anchors": ["LitlTransforms/LitlTransforms/Kernel.h: correlateTo, correlateWithoutExtrapolation, correlateWithExtrapolation, operator*"]}
{"id": "C114", "title": "Samplings of doubles", "statement": "An axis sampling of doubles visits front, front + step, ... up to back: as many values as its size, in order, each of them up to rounding, none of them after back; with integer values it is the sampling of indices.", "quantifier": "All the doubles front, back and step", "why_tests_cant": "Depends on the roundings of each triple of doubles, and on the number of values", "anchors": ["LitlRaster/LitlRaster/Sampling.h: AxisSampling, AxisSampling::Iterator, size, begin, end, vector"]}
{"id": "C115", "title": "ND kernels in place", "statement": "A kernel can be applied in place: kernel.correlateTo(extrapolated raster, raster) leaves in the raster the pixels it would write in another one.", "quantifier": "All dimensions, shapes, windows, values, pixels and types, and all the extrapolation methods", "why_tests_cant": "The result depends on which pixels are already written when each one is read, i.e. on the order of the loops over the regions for each shape and window", "anchors": ["LitlTransforms/LitlTransforms/Kernel.h: Kernel::correlateTo, correlateWithoutExtrapolation, correlateWithExtrapolation", "LitlRaster/LitlRaster/Box.h: Box::surround", "LitlTransforms/LitlTransforms/InterpolationMethods.h: NearestNeighbor, OutOfBoundsConstant, Periodic"]}
{"id": "C116", "title": "Kernels larger than the raster", "statement": "A kernel whose window is larger than the raster along some axes can be applied to the extrapolated raster: each pixel of the result is the weighted sum of the extrapolated pixels in the window around its position, and nothing is read or written out of the rasters.", "quantifier": "All dimensions, shapes, windows larger than the raster along one or more axes, values, pixels, types and extrapolations", "why_tests_cant": "The regions which surround an empty inner region overlap or have negative lengths in a way which depends on each combination of shape and window; out-of-bounds writes may go unnoticed", "anchors": ["LitlTransforms/LitlTransforms/Kernel.h: Kernel::correlateTo, correlateWithoutExtrapolation, correlateWithExtrapolation", "LitlRaster/LitlRaster/Box.h: Box::surround, Box::size"]}
{"id": "C117", "title": "First, last and indexed elements", "statement": "For any container or raster which is not empty, front() and back() are its first and last elements, i.e. the pixels at the first and last positions of the domain, and container[i] for 0 <= i < size() is the element of index i, i.e. raster[raster.index(position)] is raster[position]; assigning through them changes that element and no other. Sections and other views behave so with the pixels they point to. Without bound checking, access is undefined exactly for empty containers and for indices out of the bounds, negative ones included.", "quantifier": "All element types, sizes, shapes, dimensions, indices and views", "why_tests_cant": "Accesses out of the bounds may silently succeed when they are tried, and the equivalence of the accessors must hold for all shapes and positions", "anchors": ["LitlContainer/LitlContainer/ContiguousContainer.h: ContiguousContainerMixin::operator[], front, back, emtpy, begin, end", "LitlRaster/LitlRaster/Raster.h: Raster::operator[], index", "LitlContainer/LitlContainer/Holders.h: PtrHolder"]}
{"id": "C118", "title": "Plans executed in parallel", "statement": "Plan execution is thread-safe: after any history, several plans can be transformed in parallel in different threads, and whatever the order of their accesses to the memory there is no data race, the executions terminate, the input and output of each plan are as if it had been executed alone, and the remaining memory is unchanged.", "quantifier": "All histories of plans and rasters, numbers of plans and threads, executions of FFTW which access the arrays of their plan, contents of the memory, and interleavings", "why_tests_cant": "Tests run few schedules, and races on shared arrays may have no visible effect", "anchors": ["doc/dft.dox: Plan execution is thread-safe", "LitlTransforms/LitlTransforms/DftPlan.h: DftPlan::transform, inverse", "LitlTransforms/LitlTransforms/DftMemory.h: FftwAllocator"]}
{"id": "C119", "title": "End of programs which use the DFT", "statement": "Whatever plans a program constructs, moves, transforms and destroys, and whether it returns from main() or calls exit(), FFTW's plans are executed and destroyed before FFTW is cleaned up only, each plan is destroyed if main() returns, and FFTW is cleaned up once, after any other call, if it was used.", "quantifier": "All programs, as sequences of constructions, moves, transforms and destructions of plans and of objects of static storage duration, and both ends", "why_tests_cant": "The end of the program is after the last assertion, and the order of destruction of static objects depends on the whole program", "anchors": ["LitlTransforms/LitlTransforms/DftMemory.h: FftwAllocator, instantiate, ~FftwAllocator, createPlan, destroyPlan", "LitlTransforms/LitlTransforms/DftPlan.h: DftPlan, ~DftPlan"]}
{"id": "C120", "title": "Plans created, executed and used by several threads", "statement": "Threads which use different plans, and their inverses - executing them, reading and writing their rasters - while at most one thread creates or destroys plans, do not interfere: no data race occurs in any interleaving, and the result is that of the threads executed one by one. Threads which all create plans do interfere, although the allocator of plans is documented as thread-safe.", "quantifier": "All histories of plans, all numbers of threads and tasks, all programs of FFTW and of the user which access the arrays of the plans and FFTW's global variables, all interleavings", "why_tests_cant": "Races depend on the schedule and are rarely observed", "anchors": ["LitlTransforms/LitlTransforms/DftMemory.h: FftwAllocator, createPlan, destroyPlan", "LitlTransforms/LitlTransforms/DftPlan.h: DftPlan, inverse, transform, in, out, normalize", "doc/dft.dox: dft-planning"]}
{"id": "C121", "title": "Transforms of any shape", "statement": "The transform of a plan is that of all the values of its input, whatever the shape of the plan, as long as its buffers could be allocated; shapes which cannot be transformed are reported. In any case, no element is accessed out of the buffers.", "quantifier": "All transforms (real, complex and their inverses), all dimensions, all lengths, contents of the buffers and answers of FFTW's planner", "why_tests_cant": "Lengths of at least 2^31 require tens of gigabytes", "anchors": ["LitlTransforms/LitlTransforms/Dft.h: fftwShape, allocateFftwPlan", "LitlTransforms/LitlTransforms/DftPlan.h: DftPlan, transform", "LitlTransforms/LitlTransforms/DftMemory.h: createPlan"]}
{"id": "C122", "title": "Copies and moves of pipelines", "statement": "A copy of a pipeline, or a pipeline which another one is copied or moved to, is in the state of the latter: it gives the same values, without evaluating again the steps which were evaluated. From then on, pipelines do not interfere: each one gives the values which it would give alone. A pipeline which was moved from can be used again: its steps are not evaluated.", "quantifier": "All steps, data and prerequisites, and all histories of creations, copies, moves, assignments, destructions, resets and calls on any number of pipelines", "why_tests_cant": "Histories are unbounded and what a moved object contains depends on the standard library", "anchors": ["LitlRun/LitlRun/StepperPipeline.h: StepperPipeline (implicit copy and move members), get, evaluated, milliseconds, reset"]}
