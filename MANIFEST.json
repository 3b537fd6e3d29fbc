{
 "claims": [
  {
   "property": "C01",
   "status": "proved",
   "theorems": [
    "C01_index_bijection",
    "C01_index_row_major",
    "C01_index_first_last",
    "C01_index_same",
    "C01_index_mismatch"
   ],
   "note": "Row-major bijection, both fixed and run-time dimension."
  },
  {
   "property": "C02",
   "status": "proved",
   "theorems": [
    "C02_no_overflow",
    "C02_empty_raster_overflows"
   ],
   "note": "For rasters without zero length; C02_empty_raster_overflows shows that a zero length does not protect from overflow of size()."
  },
  {
   "property": "C03",
   "status": "proved",
   "theorems": [
    "C03_box_iteration"
   ],
   "note": "Non-empty boxes of dimension at least 1."
  },
  {
   "property": "C04",
   "status": "partial",
   "theorems": [
    "C04_empty_iteration_never_ends",
    "C04_empty_iteration_refuted"
   ],
   "note": "Does not hold: iteration over an empty box never ends (C04_empty_iteration_never_ends)."
  },
  {
   "property": "C05",
   "status": "partial",
   "theorems": [
    "C05_size_is_count_partial",
    "C05_size_is_visited_partial",
    "C05_size_zero_partial",
    "C05_size_refuted"
   ],
   "note": "Proved for non-empty boxes and for boxes with a zero length; refuted for negative lengths."
  },
  {
   "property": "C06",
   "status": "partial",
   "theorems": [
    "C06_fromShape",
    "C06_fromCenter",
    "C06_translate",
    "C06_translate_scalar",
    "C06_inverse",
    "C06_equality",
    "C06_project",
    "C06_minus_refuted",
    "C06_minus_empty",
    "C06_minus_partial"
   ],
   "note": "All laws proved except unary minus, which is refuted (a box with a length greater than one becomes empty) and proved for one-position boxes."
  },
  {
   "property": "C07",
   "status": "proved",
   "theorems": [
    "C07_surround"
   ],
   "note": "Margins with front <= 0 <= back."
  },
  {
   "property": "C08",
   "status": "proved",
   "theorems": [
    "C08_at_index",
    "C08_at_index_write"
   ],
   "note": "All 64-bit indices and sizes; read and write."
  },
  {
   "property": "C09",
   "status": "proved",
   "theorems": [
    "C09_at_position",
    "C09_at_position_write"
   ],
   "note": "Read and write, both kinds of dimension."
  },
  {
   "property": "C10",
   "status": "proved",
   "theorems": [
    "C10_contains"
   ],
   "note": "Integral positions with the dimension of the raster."
  },
  {
   "property": "C11",
   "status": "partial",
   "theorems": [
    "C11_from_list_partial",
    "C11_from_list_array_partial",
    "C11_from_container",
    "C11_from_shape",
    "C11_from_shape_array_partial",
    "C11_array_refuted",
    "C11_runtime_refuted"
   ],
   "note": "Proved for fixed dimension (vector and array holders) and for moved containers; refuted for lists and ranges with run-time dimension (C11_runtime_refuted): the shape is read after it was moved from. A shape without pixel over an array is refuted: the elements of the array remain."
  },
  {
   "property": "C12",
   "status": "partial",
   "theorems": [
    "C12_slice",
    "C12_slice_access",
    "C12_write_frame",
    "C12_section_range_partial",
    "C12_section_partial",
    "C12_runtime_section_refuted"
   ],
   "note": "Slices proved for both kinds of dimension, sections for fixed dimension; sections of run-time dimension rasters are undefined behaviour (C12_runtime_section_refuted)."
  },
  {
   "property": "C13",
   "status": "proved",
   "theorems": [
    "C13_subraster_access",
    "C13_subraster_iteration",
    "C13_end_pointer"
   ],
   "note": "Regions of the parent domain. C13_end_pointer records that end() forms the address before the first pixel."
  },
  {
   "property": "C14",
   "status": "proved",
   "theorems": [
    "C14_equality",
    "C14_equivalence"
   ],
   "note": "Pixel types whose == is equality."
  },
  {
   "property": "C15",
   "status": "proved",
   "theorems": [
    "C15_inplace_vector",
    "C15_inplace_scalar",
    "C15_inplace_unary",
    "C15_new_vector",
    "C15_new_scalar",
    "C15_new_unary",
    "C15_inverse_vector",
    "C15_inverse_scalar",
    "C15_division_by_zero",
    "C15_short_operand",
    "C15_quotient_remainder",
    "C15_unary_integers"
   ],
   "note": "All operators, as any element-wise operation, in place and new instance; aliasing of the right-hand side is allowed where it is harmless. Values are unbounded integers or any type; * then / over exact multiples."
  },
  {
   "property": "C16",
   "status": "partial",
   "theorems": [
    "C16_alias_characterised",
    "C16_alias_last_partial",
    "C16_alias_refuted"
   ],
   "note": "Does not hold: the elements after the aliased one use its updated value (C16_alias_refuted, C16_alias_characterised). Proved when the scalar is the last element."
  },
  {
   "property": "C17",
   "status": "partial",
   "theorems": [
    "C17_scalar_minus_vector_characterised",
    "C17_scalar_minus_vector_fixed",
    "C17_scalar_minus_vector_runtime",
    "C17_scalar_minus_vector_refuted"
   ],
   "note": "Does not hold: a - V builds the zero vector of dimension a (C17_scalar_minus_vector_refuted). Exact characterisation of all outcomes given."
  },
  {
   "property": "C18",
   "status": "partial",
   "theorems": [
    "C18_fill",
    "C18_range",
    "C18_linspace",
    "C18_linspace_integer_partial",
    "C18_linspace_short",
    "C18_linspace_integer_refuted"
   ],
   "note": "fill, range and floating-point linspace proved; integer linspace proved for min <= max up to the rounding of the step, refuted for min > max."
  },
  {
   "property": "C19",
   "status": "proved",
   "theorems": [
    "C19_generate",
    "C19_apply"
   ],
   "note": "Any stateful function, any number of arguments, aliasing allowed where harmless."
  },
  {
   "property": "C20",
   "status": "proved",
   "theorems": [
    "C20_min",
    "C20_max",
    "C20_minmax",
    "C20_empty"
   ],
   "note": "Any strict weak ordering; minmax() references the last greatest element, max() the first one."
  },
  {
   "property": "C21",
   "status": "partial",
   "theorems": [
    "C21_nth",
    "C21_nth_outside",
    "C21_sort",
    "C21_min_max",
    "C21_median_partial",
    "C21_median_refuted",
    "C21_possible"
   ],
   "note": "nth, sort, min, max proved for any history and any strict weak ordering. The median is proved when each nth() reference is read before the other call, and refuted for the other evaluation orders C++ allows."
  },
  {
   "property": "C22",
   "status": "partial",
   "theorems": [
    "C22_quantile_characterised",
    "C22_quantile_partial",
    "C22_quantile_refuted",
    "C22_outside"
   ],
   "note": "Does not hold: the weights of the two neighbours are swapped (C22_quantile_refuted). Exact characterisation; right at integral and half-integral ranks."
  },
  {
   "property": "C23",
   "status": "partial",
   "theorems": [
    "C23_histogram_partial",
    "C23_histogram_refuted"
   ],
   "note": "Proved if no value equals the last bound; refuted otherwise (a count past the end of the result is incremented)."
  },
  {
   "property": "C24",
   "status": "partial",
   "theorems": [
    "C24_mean_integer_partial",
    "C24_mean_integer_refuted",
    "C24_mean_float"
   ],
   "note": "Proved for floating-point data and for integers with a non-negative sum; refuted for negative sums (unsigned division), where the mean is always positive."
  },
  {
   "property": "C25",
   "status": "partial",
   "theorems": [
    "C25_owning",
    "C25_history",
    "C25_not_power_of_two_refuted",
    "C25_shared",
    "C25_is_aligned",
    "C25_alignment_partial",
    "C25_alignment_refuted",
    "C25_null_pointer"
   ],
   "note": "Owning, sharing and isAligned proved for construction and for any owner in any history (power-of-two requirement; sizes which do not overflow size_t; a failed allocation gives null data). alignment() proved but for address 2^63, where the shift overflows (refuted)."
  },
  {
   "property": "C26",
   "status": "proved",
   "theorems": [
    "C26_no_double_free",
    "C26_step",
    "C26_operations"
   ],
   "note": "Any history of any number of buffers, any outcome of malloc. C26_operations says what becomes of the buffers each operation applies to, C26_step that the others are unchanged. The contents of the blocks are in C92."
  },
  {
   "property": "C27",
   "status": "partial",
   "theorems": [
    "C27_move_refuted",
    "C27_move_assign_refuted",
    "C27_copy_assign_refuted",
    "C27_no_leak_partial",
    "C27_leak_iff"
   ],
   "note": "Refuted by move construction from an owner, move or copy assignment to an owner; proved for all the other histories, and those operations are shown to be exactly what leaks."
  },
  {
   "property": "C28",
   "status": "partial",
   "theorems": [
    "C28_axis_sampling_partial",
    "C28_default_refuted",
    "C28_null_step",
    "C28_position_sampling_partial",
    "C28_variable_dimension_refuted"
   ],
   "note": "Proved under no-overflow hypotheses. Refuted for the default sampling (size() overflows), and for shape() of variable dimension (writes out of bounds)."
  },
  {
   "property": "C29",
   "status": "partial",
   "theorems": [
    "C29_iteration_partial",
    "C29_all_samples_partial",
    "C29_bounds_refuted",
    "C29_back_refuted"
   ],
   "note": "Iteration is characterised exactly. The property holds when all elements are sampled. Refuted otherwise: end() uses the number of elements rather than the number of samples, hence out-of-bounds reads as soon as front > 0 or step > 1, and back is ignored."
  },
  {
   "property": "C30",
   "status": "partial",
   "theorems": [
    "C30_double_partial",
    "C30_exact_power",
    "C30_double_refuted",
    "C30_ball_iteration_partial",
    "C30_negative_radius_never_ends"
   ],
   "note": "Exact rational radii: proved for all positive norms, all dimensions and non-negative radii. Double radii, for any std::pow right to the last digit: no position is missed, and the iteration is exact if the power of the radius is a double (norm L1, integral radii); otherwise a position farther than the radius by a relative 2^-52 may be visited (C30_double_refuted). The pseudo-norm P = 0 has no iterator in the code. Balls of radius at most -1 are empty and iteration over them is proved not to end."
  },
  {
   "property": "C31",
   "status": "partial",
   "theorems": [
    "C31_constants",
    "C31_inf_refuted",
    "C31_whole_refuted",
    "C31_slice",
    "C31_slice_too_long",
    "C31_extend",
    "C31_extend_too_short",
    "C31_extend_slice",
    "C31_shape_size"
   ],
   "note": "inf() refuted: it is filled with the opposite of the greatest value and is not recognised by isInf(); so Box::whole() is empty (C31_whole_refuted). All the rest proved."
  },
  {
   "property": "C32",
   "status": "proved",
   "theorems": [
    "C32_clamp"
   ],
   "note": "clamp(position, shape); clamp(position, box) does not compile."
  },
  {
   "property": "C33",
   "status": "partial",
   "theorems": [
    "C33_floor_characterised",
    "C33_floor_partial",
    "C33_floor_refuted"
   ],
   "note": "Refuted at negative integers, where floor is one less; exact elsewhere."
  },
  {
   "property": "C34",
   "status": "proved",
   "theorems": [
    "C34_correlate",
    "C34_long_kernel"
   ],
   "note": "Kernels not longer than the line: values, frame and memory safety. Longer kernels (out of the property) are shown to read out of bounds."
  },
  {
   "property": "C35",
   "status": "partial",
   "theorems": [
    "C35_sparse_partial",
    "C35_back_partial",
    "C35_back_refuted",
    "C35_step_refuted"
   ],
   "note": "Refuted: samples in the gap between the second and third loops read past the kernel, the back of the sampling is ignored by the first two loops, a long step wraps the loop bound. The elements written and their values are characterised for every sampling with a step short enough."
  },
  {
   "property": "C36",
   "status": "proved",
   "theorems": [
    "C36_along"
   ],
   "note": "All dimensions, shapes, axes, and line kernels which fit."
  },
  {
   "property": "C37",
   "status": "proved",
   "theorems": [
    "C37_apply",
    "C37_order",
    "C37_linear",
    "C37_combine",
    "C37_shared_axis",
    "C37_product"
   ],
   "note": "Sequence, independence of the order of the axes, linearity, combination with distinct axes, and equality with the product ND kernel. With a shared axis (out of the property) the combination is refuted."
  },
  {
   "property": "C38",
   "status": "partial",
   "theorems": [
    "C38_compose_partial",
    "C38_symmetric_partial",
    "C38_refuted"
   ],
   "note": "Refuted: compose() is the mirrored product kernel, for all kernels; it is right for kernels symmetric about their origin."
  },
  {
   "property": "C39",
   "status": "partial",
   "theorems": [
    "C39_partial",
    "C39_line_partial",
    "C39_column_partial",
    "C39_row_refuted",
    "C39_plane_refuted",
    "C39_large_refuted",
    "C39_kernelize",
    "C39_origin_refuted",
    "C39_kernelize_refuted",
    "C39_operator_partial"
   ],
   "note": "Refuted: after the first inner row, the first pixel of each row is computed from a stale input address (witness in dimension 2), kernels with several planes are read at wrong addresses in dimension 3 and above, and windows longer than the raster by two or more make the loop run forever; windows which fit but do not contain the origin, e.g. those of kernels made with an origin out of their raster, access memory out of the rasters in any dimension (C39_origin_refuted, C39_kernelize_refuted). Proved: absence of undefined behaviour and exact value of every pixel for windows containing the origin which fit in the raster; correctness of all extrapolated pixels, of all pixels in dimension 1 (also of the * operator), of column kernels in dimension 2, and of every inner pixel adjacent in memory to the previous inner one when the window is flat beyond axis 1. Windows which do not fit in the raster: C116."
  },
  {
   "property": "C40",
   "status": "partial",
   "theorems": [
    "C40_odd_partial",
    "C40_region_partial",
    "C40_raster_partial",
    "C40_outside",
    "C40_filter_partial",
    "C40_radius",
    "C40_even_partial",
    "C40_even_refuted"
   ],
   "note": "Refuted for even windows: the value at rank size/2 + 1 is averaged with some value which is not greater, and two values are undefined behaviour. Proved for odd windows (in particular all windows built from a radius), for all results of std::nth_element allowed by the standard, with exact rationals; the pixels out of the region do not change. Other types of pixels and the conversion to the output type: see C103."
  },
  {
   "property": "C41",
   "status": "proved",
   "theorems": [
    "C41_inside",
    "C41_defined",
    "C41_constant",
    "C41_nearest",
    "C41_periodic",
    "C41_unique",
    "C41_translation"
   ],
   "note": "For every well-formed raster of positive shape and every position of the right dimension."
  },
  {
   "property": "C42",
   "status": "partial",
   "theorems": [
    "C42_nearest_partial",
    "C42_integral_partial",
    "C42_negative",
    "C42_refuted"
   ],
   "note": "Proved for coordinates from -1/2; refuted for integral negative positions, for which the next pixel is returned whatever the raster (truncation instead of rounding)."
  },
  {
   "property": "C43",
   "status": "partial",
   "theorems": [
    "C43_mirrored",
    "C43_mirror_exists",
    "C43_between_partial",
    "C43_center_partial",
    "C43_affine_mirrored",
    "C43_integral_refuted",
    "C43_affine_refuted",
    "C43_continuous_refuted"
   ],
   "note": "Refuted: weights are reversed. Proved: the value is that of the exact multilinear interpolation at the position mirrored in its cell; it lies between the neighbors and is right at the center of cells."
  },
  {
   "property": "C44",
   "status": "proved",
   "theorems": [
    "C44_cells",
    "C44_continuous",
    "C44_integral",
    "C44_affine",
    "C44_defined"
   ],
   "note": "Proved for all positions, negative included: Catmull-Rom polynomial of every closed cell the position belongs to, pixel at integral positions, exact on affine rasters. Values are exact rationals instead of floating-point."
  },
  {
   "property": "C45",
   "status": "proved",
   "theorems": [
    "C45_history",
    "C45_get",
    "C45_cached",
    "C45_reset"
   ],
   "note": "For every acyclic graph, every behavior of the steps (state changes, failures, durations) and every sequence of get calls between resets. Steps are assumed not to call the pipeline themselves."
  },
  {
   "property": "C46",
   "status": "proved",
   "theorems": [
    "C46_history",
    "C46_new",
    "C46_alternate",
    "C46_running",
    "C46_stop",
    "C46_clock",
    "C46_accuracy",
    "C46_empty",
    "C46_mean",
    "C46_variance",
    "C46_extrema"
   ],
   "note": "For every history of calls and clock values; TUnit is integral and increments are exact as double. last(), min() and max() are undefined without increment (stated)."
  },
  {
   "property": "C47",
   "status": "partial",
   "theorems": [
    "C47_apply_partial",
    "C47_local_partial",
    "C47_seeds",
    "C47_distinct_seeds",
    "C47_zero_refuted",
    "C47_contrast"
   ],
   "note": "Proved for a positive mean and containers of positive values, the precondition of std::poisson_distribution. The default mean 0 and zero values (as in the documentation's example) break that precondition (C47_zero_refuted). The derived seeds are never the value which stands for the current time, and are pairwise distinct for containers of less than 2^31 - 2 elements (C47_distinct_seeds)."
  },
  {
   "property": "C48",
   "status": "partial",
   "theorems": [
    "C48_low_partial",
    "C48_high",
    "C48_close",
    "C48_output",
    "C48_refuted",
    "C48_salt_pepper"
   ],
   "note": "Exact arithmetic. The probabilities are the given ones when their sum plus the tolerance is below one, and normalized ones otherwise. Refuted: a sum just under one drops the input's share; saltAndPepper with equal values ignores the second probability."
  },
  {
   "property": "C49",
   "status": "partial",
   "theorems": [
    "C49_shapes",
    "C49_extents_partial",
    "C49_extents_refuted",
    "C49_allocated_partial",
    "C49_new_partial",
    "C49_inverse_partial",
    "C49_compose_partial",
    "C49_compose_refuted",
    "C49_transform_partial",
    "C49_round_trip_partial",
    "C49_functions_partial"
   ],
   "note": "FFTW is a parameter which satisfies the documented laws (sizes, unnormalized inverse); exact arithmetic. Proved for all histories of plans with lengths below 2^31 and compositions of equal sizes. Refuted: longer axes are silently narrowed to int, and composing with a larger shape is undefined. In-place plans: see C98; lifetime of the FFTW plans: see C81."
  },
  {
   "property": "C50",
   "status": "proved",
   "theorems": [
    "C50_short",
    "C50_long",
    "C50_injective"
   ],
   "note": "Injectivity for elements whose text is not empty and has no comma."
  },
  {
   "property": "C51",
   "status": "partial",
   "theorems": [
    "C51_segment_characterised",
    "C51_segment_refuted"
   ],
   "note": "Does not hold: right for front = 0 only."
  },
  {
   "property": "C52",
   "status": "proved",
   "theorems": [
    "C52_function_scalar",
    "C52_function_unary"
   ],
   "note": "Containers as arguments are C15_inplace_vector (same loop)."
  },
  {
   "property": "C53",
   "status": "proved",
   "theorems": [
    "C53_serialize"
   ],
   "note": ""
  },
  {
   "property": "C54",
   "status": "partial",
   "theorems": [
    "C54_mad_partial",
    "C54_possible",
    "C54_order_refuted",
    "C54_integer_partial",
    "C54_integer_refuted"
   ],
   "note": "Floating-point data (exact values): proved when each reference is read before the next call, and shown to be possible; violated for the other evaluation orders (C54_order_refuted). Integer data: proved if the median is an integer; otherwise the deviations are truncated (C54_integer_refuted)."
  },
  {
   "property": "C55",
   "status": "partial",
   "theorems": [
    "C55_bounding_box",
    "C55_shape",
    "C55_translate",
    "C55_scalar_opposite",
    "C55_equality",
    "C55_size_bound_partial",
    "C55_size_refuted"
   ],
   "note": "All proved except for size(), which is refuted (it is the size of the bounding box) and bounded."
  },
  {
   "property": "C56",
   "status": "partial",
   "theorems": [
    "C56_moves_partial",
    "C56_moves_refuted",
    "C56_postfix_refuted"
   ],
   "note": "Proved when the conversion of the offset to the element type is exact; refuted for 8-bit elements and for the postfix increment."
  },
  {
   "property": "C57",
   "status": "partial",
   "theorems": [
    "C57_origin_refuted"
   ],
   "note": "Refuted: the order of evaluation of the arguments is unspecified; both outcomes characterised."
  },
  {
   "property": "C58",
   "status": "partial",
   "theorems": [
    "C58_same_partial",
    "C58_empty_refuted"
   ],
   "note": "Proved for positive lengths. Refuted for empty rasters: the iterations over positions never end (as C04)."
  },
  {
   "property": "C59",
   "status": "partial",
   "theorems": [
    "C59_bounds",
    "C59_constants",
    "C59_half",
    "C59_noise_partial",
    "C59_corner_refuted",
    "C59_noise_modulo",
    "C59_epsilon_refuted"
   ],
   "note": "Bounds, zero, one and halves proved. Refuted at one corner: half the max plus half the max overflows, which is undefined behavior for int and long; also, the epsilon of integral types is 0. Floating-point types: see C101."
  },
  {
   "property": "C60",
   "status": "proved",
   "theorems": [
    "C60_history",
    "C60_apply",
    "C60_generate",
    "C60_independent",
    "C60_complex"
   ],
   "note": "The standard engine and distributions, conversions and sums are arbitrary functions (Section variables); conversions and sums may be undefined. Complex: for distributions which keep no state and move the engine in the same way."
  },
  {
   "property": "C61",
   "status": "partial",
   "theorems": [
    "C61_write",
    "C61_copy",
    "C61_move",
    "C61_copy_assign",
    "C61_self_assign",
    "C61_move_assign",
    "C61_move_to",
    "C61_view",
    "C61_view_pixels",
    "C61_destroy",
    "C61_defined",
    "C61_consistent_partial",
    "C61_moved_refuted",
    "C61_move_to_refuted"
   ],
   "note": "Invariant over all histories: ownership is unique, so copies and moves behave as values, and only writes through dangling views or out of the pixels are undefined. The consistency of shape and pixels fails for moved-from rasters of fixed dimension and after moveTo (refuted); it is proved for programs which do neither (C61_consistent_partial). Assignments of a moved vector to itself are left out (not specified by C++). ArrRaster: see C102. C61_view_pixels: a view has the pixels of its source from its offset on, as many as its shape tells."
  },
  {
   "property": "C62",
   "status": "partial",
   "theorems": [
    "C62_round_trip_partial",
    "C62_bytes",
    "C62_wide_refuted",
    "C62_read",
    "C62_dimension_refuted",
    "C62_overwrite_refuted",
    "C62_missing_refuted",
    "C62_sticky_refuted",
    "C62_status_partial"
   ],
   "note": "Proved for pixels of one byte and new files when no call fails (C62_round_trip_partial); whichever calls fail, the status tells whether one did, no file is left open by write() and other files are untouched (C62_status_partial). Wider pixels lose bytes (C62_bytes, refuted), and errors are silent: existing or missing files, and any use after a failure (refuted); a wrong dimension throws but leaves the file open (refuted)."
  },
  {
   "property": "C63",
   "status": "partial",
   "theorems": [
    "C63_correlate2d_partial",
    "C63_sparse_partial",
    "C63_bytes_refuted",
    "C63_region_refuted"
   ],
   "note": "Proved when the pixel type represents the row offsets and the samplings suit the kernel (the whole domain always does). Refuted for bytes and 256 columns (the row offset is converted to the pixel type) and for regions which stop before the right border."
  },
  {
   "property": "C64",
   "status": "partial",
   "theorems": [
    "C64_defined",
    "C64_undefined",
    "C64_constant",
    "C64_within_partial",
    "C64_overflow_refuted",
    "C64_negative_refuted"
   ],
   "note": "Proved with IEEE 754 rounding for any dimension: constants at any position, and bounds for non-negative coordinates when the difference of the bounds is finite; undefined at positions which are not finite or exceed the indices (C64_undefined). Refuted otherwise: overflow, and negative positions at a distance rounded to 1."
  },
  {
   "property": "C65",
   "status": "partial",
   "theorems": [
    "C65_cubic_defined",
    "C65_undefined",
    "C65_cubic_constant_partial",
    "C65_cubic_refuted",
    "C65_nearest_partial",
    "C65_nearest_refuted"
   ],
   "note": "Cubic: constants proved exact for integers up to 2^50, refuted for 0.1. Nearest: proved for every double from 0 to 2^51 but one, refuted for that one (the largest below 1/2). Undefined at positions which are not finite or exceed the indices (C65_undefined)."
  },
  {
   "property": "C66",
   "status": "partial",
   "theorems": [
    "C66_linspace_partial",
    "C66_overflow_refuted",
    "C66_subnormal_refuted",
    "C66_linspace_short",
    "C66_range_steps",
    "C66_range_exact_partial",
    "C66_range_refuted"
   ],
   "note": "linspace proved for 2 to 2^50 elements, finite range and normal step; refuted when the range overflows (first value is NaN) and for subnormal steps (a value exceeds the maximum). range: each sum is rounded (proved), exact for integers (proved), exact steps refuted for 0.1."
  },
  {
   "property": "C67",
   "status": "partial",
   "theorems": [
    "C67_mean_partial",
    "C67_mean_refuted"
   ],
   "note": "Proved for integer values with sums up to 2^53; refuted for 0.1, 0.1, 0.1."
  },
  {
   "property": "C68",
   "status": "partial",
   "theorems": [
    "C68_identity",
    "C68_diagonal_partial",
    "C68_diagonal_characterised",
    "C68_diagonal_refuted",
    "C68_copy_elements",
    "C68_copy_refuted",
    "C68_assign_refuted"
   ],
   "note": "Identity and diagonal matrices proved for all shapes, up to min(rows, columns) values; more values are written off the diagonal or out of the array (C68_diagonal_refuted, characterised). Copies have the same elements, but their determinant reads the elements of the source (C68_copy_refuted, C68_assign_refuted). Missing: the numerical content of determinants and inverses, which is Eigen's."
  },
  {
   "property": "C69",
   "status": "partial",
   "theorems": [
    "C69_message",
    "C69_bounds",
    "C69_bounds_text",
    "C69_size",
    "C69_double_bounds_partial",
    "C69_nan_refuted",
    "C69_form_refuted"
   ],
   "note": "Messages, integer bounds and finite double bounds proved. NaN is always accepted (C69_nan_refuted), and the message is not of the documented form (C69_form_refuted). The texts of the messages are C69_bounds_text and C69_size."
  },
  {
   "property": "C70",
   "status": "proved",
   "theorems": [
    "C70_iterators",
    "C70_generate",
    "C70_transform",
    "C70_serialize"
   ],
   "note": "For all orders of evaluation, including when some iterator is out of bounds. Serialization is of the texts of the arguments."
  },
  {
   "property": "C71",
   "status": "partial",
   "theorems": [
    "C71_value",
    "C71_program_name",
    "C71_accepted",
    "C71_has_refuted",
    "C71_again_refuted",
    "C71_error_refuted",
    "C71_copy_refuted",
    "C71_declarations",
    "C71_objects_partial",
    "C71_copies_partial"
   ],
   "note": "The value after any history of accepted command lines is the first one given, else the default value, and correct command lines are accepted; several objects do not interfere as long as none is copied (C71_objects_partial). Options with default values are said to be set (C71_has_refuted), later values are ignored (C71_again_refuted), failed parses leave a trace (C71_error_refuted), copies declare options in the original (C71_copy_refuted). The semantics of Boost.ProgramOptions is written out in the model. C71_copies_partial: a copy starts as the copied object, and parsing one of them leaves the other unchanged."
  },
  {
   "property": "C72",
   "status": "partial",
   "theorems": [
    "C72_operator",
    "C72_inplace",
    "C72_new",
    "C72_wraps_partial",
    "C72_unsigned_refuted",
    "C72_undefined",
    "C72_inverse",
    "C72_unary",
    "C72_range",
    "C72_range_refuted"
   ],
   "note": "C72_operator, C72_inplace, C72_new, C72_undefined, C72_inverse, C72_unary and C72_range hold for all integral types and characterise overflow. Violated: products of unsigned short are made in int and may be undefined (C72_unsigned_refuted; C72_wraps_partial for the other types), and range evaluates one value too many, which may overflow although all elements are representable (C72_range_refuted)."
  },
  {
   "property": "C73",
   "status": "partial",
   "theorems": [
    "C73_fraction_ignored",
    "C73_less_than_one",
    "C73_new_less_than_one",
    "C73_less_than_two",
    "C73_not_representable",
    "C73_scaling_partial",
    "C73_scaling_refuted"
   ],
   "note": "Violated: the scalar is first converted to the pixel type (C73_scaling_refuted with the values of the documentation). C73_fraction_ignored, C73_less_than_one, C73_new_less_than_one, C73_less_than_two and C73_not_representable characterise what happens; C73_scaling_partial proves the expected behaviour for integral scalars."
  },
  {
   "property": "C74",
   "status": "partial",
   "theorems": [
    "C74_loops",
    "C74_domain_partial",
    "C74_domain_empty",
    "C74_domain_runtime",
    "C74_domain_no_axis",
    "C74_domain_refuted"
   ],
   "note": "C74_loops proves the equivalence of all the loops but the one over the domain. The latter is violated (C74_domain_refuted): it never ends for empty rasters (C74_domain_empty, for all of them) and throws for a run-time dimension. C74_domain_partial proves it otherwise."
  },
  {
   "property": "C75",
   "status": "partial",
   "theorems": [
    "C75_formula",
    "C75_generate",
    "C75_apply",
    "C75_integral_partial",
    "C75_integral_refuted"
   ],
   "note": "Proved for any arithmetic without conversion (C75_formula, C75_generate, C75_apply). Violated for integers narrower than int, since generate() evaluates the formula after promotion (C75_integral_refuted); C75_integral_partial proves the equivalence modulo the number of values for additions, subtractions and multiplications."
  },
  {
   "property": "C76",
   "status": "proved",
   "theorems": [
    "C76_first_axis",
    "C76_layout",
    "C76_structures",
    "C76_weighted_sum",
    "C76_last_axis"
   ],
   "note": "For all shapes, channels and functions. Doubles are covered by the weighted sum since the arithmetic is arbitrary and the order of the accumulation is stated."
  },
  {
   "property": "C77",
   "status": "partial",
   "theorems": [
    "C77_color_partial",
    "C77_grey_refuted"
   ],
   "note": "Violated for greys, whose hue and saturation are not initialised, and black, whose value is not either (C77_grey_refuted states exactly when). C77_color_partial proves the rest, with exact rationals; see C106 for doubles."
  },
  {
   "property": "C78",
   "status": "partial",
   "theorems": [
    "C78_filters",
    "C78_affine_partial",
    "C78_direction_refuted"
   ],
   "note": "C78_filters proves which correlations are done for all images, and C78_affine_partial the response to all affine images. The documented direction is violated: with sign = 1, the response to any image which increases along the axis is negative (C78_direction_refuted)."
  },
  {
   "property": "C79",
   "status": "proved",
   "theorems": [
    "C79_functions",
    "C79_plans",
    "C79_inverse",
    "C79_direct"
   ],
   "note": "Complex numbers are pairs of the standard library's real numbers (its axioms are listed in DESIGN.md): rounding is not modelled. FFTW is any function which complies with its documentation, written in FourierSpec.v; one is exhibited and proved to comply. The restriction to int lengths is necessary (C49_extents_refuted)."
  },
  {
   "property": "C80",
   "status": "proved",
   "theorems": [
    "C80_convolution",
    "C80_margins"
   ],
   "note": "Same model of FFTW as C79. The kernel's coefficients are those returned by realDft or complexDft."
  },
  {
   "property": "C81",
   "status": "partial",
   "theorems": [
    "C81_single_holder",
    "C81_no_double_free",
    "C81_buffers",
    "C81_destroyed_partial",
    "C81_lost_plans",
    "C81_leaked_blocks",
    "C81_destroyed_refuted",
    "C81_functions_leak",
    "C81_functions_leak_forever",
    "C81_functions_refuted"
   ],
   "note": "Single ownership, absence of double destruction and the exact sets of leaking histories are proved. Refuted: move assignment of a plan loses its FFTW plan and both buffers, a move loses the buffers, and each call to realDft, complexDft and inverses leaks the block of the raster it returns, forever. Contents are not modelled here (see C49, C79); the heap cell of the fftw_plan variable, freed by std::unique_ptr, is not modelled."
  },
  {
   "property": "C82",
   "status": "partial",
   "theorems": [
    "C82_transform",
    "C82_access",
    "C82_in_out_partial",
    "C82_usable_partial",
    "C82_inverse_partial",
    "C82_assignment",
    "C82_in_out_refuted",
    "C82_transform_refuted"
   ],
   "note": "transform() is characterised; it goes from in() to out() in all histories without assignment to in() or out(), and is defined until the owner of the buffers is moved or destroyed. Pixels of in() and out() can be accessed exactly if they are in the allocated buffer (C82_access). Refuted: after in() = raster, FFTW reads the former buffer; transform() of a moved plan dereferences a null pointer."
  },
  {
   "property": "C83",
   "status": "proved",
   "theorems": [
    "C83_functions",
    "C83_plans",
    "C83_bound"
   ],
   "note": "Same model of FFTW as C79; rounding is not modelled. The bound on the degree is proved necessary for every length (C83_bound)."
  },
  {
   "property": "C84",
   "status": "partial",
   "theorems": [
    "C84_separable_result",
    "C84_separable",
    "C84_type_refuted",
    "C84_line",
    "C84_samples_result",
    "C84_along_result",
    "C84_sparse_2d_result",
    "C84_sparse_2d_rasters"
   ],
   "note": "Refuted: one line per axis (separable kernels) or per pixel (Kernel1d) is printed with the conversion %i, which is undefined for floating-point pixels and 64-bit integers (C84_type_refuted, C84_line). Proved: for integers of at most 32 bits, what is printed exactly (C84_separable, C84_line), and that the results are those of C35 to C38 and C63 (C84_*_result)."
  },
  {
   "property": "C85",
   "status": "partial",
   "theorems": [
    "C85_separable",
    "C85_exact",
    "C85_defined",
    "C85_wrap_refuted",
    "C85_overflow_refuted",
    "C85_floating_refuted",
    "C85_floating_bound",
    "C85_floating_defined",
    "C85_floating_integral"
   ],
   "note": "Refuted: partial sums are stored with the type of the kernel: narrow integers wrap (C85_wrap_refuted), correlations of unsigned 16-bit integers may overflow int (C85_overflow_refuted), and fractional parts of floating-point pixels are dropped at each step if the kernel is integral (C85_floating_refuted). Proved: for integers the result is exact modulo the number of values of the type of the kernel (C85_separable), hence exact if representable (C85_exact); sufficient conditions to be defined (C85_defined); error bound for floating-point pixels (C85_floating_bound)."
  },
  {
   "property": "C86",
   "status": "partial",
   "theorems": [
    "C86_defined",
    "C86_extremes",
    "C86_median_odd",
    "C86_median_even_partial",
    "C86_median_subnormal_refuted",
    "C86_error",
    "C86_rank",
    "C86_within",
    "C86_within_refuted",
    "C86_empty",
    "C86_outside",
    "C86_not_finite",
    "C86_negative_refuted"
   ],
   "note": "Refuted: a quantile of two equal values may exceed them (C86_within_refuted), the median of two smallest doubles is null (C86_median_subnormal_refuted), and slightly negative arguments are extrapolated (C86_negative_refuted). Proved: quantiles are finite without any overflow (C86_defined), exact at the extremes and for medians of odd sizes, correctly rounded medians of even sizes if halves are representable, error bound for other quantiles with the weights of C22 (C86_error, C86_rank, C86_within), and domain (C86_empty, C86_outside, C86_not_finite)."
  },
  {
   "property": "C87",
   "status": "partial",
   "theorems": [
    "C87_error",
    "C87_along",
    "C87_integers",
    "C87_monotone",
    "C87_mirror_refuted",
    "C87_order_refuted",
    "C87_overflow_refuted",
    "C87_infinite_refuted"
   ],
   "note": "Refuted: symmetric kernels have different responses to mirrored images (C87_mirror_refuted), the order of the axes matters (C87_order_refuted), partial sums overflow although the response is a double (C87_overflow_refuted), and a null kernel value does not hide an infinite pixel (C87_infinite_refuted). Proved: error bound for one axis (C87_along) and for successive axes, from an input which is itself inexact (C87_error), exactness for integers (C87_integers), and monotonicity in the image for non-negative kernels (C87_monotone)."
  },
  {
   "property": "C88",
   "status": "partial",
   "theorems": [
    "C88_less",
    "C88_more",
    "C88_one",
    "C88_apply",
    "C88_refuted",
    "C88_invalid_refuted"
   ],
   "note": "Refuted: with a sum less than one by at most the tolerance, the input is never kept (C88_refuted), and negative, NaN or infinite probabilities break the requirements of std::discrete_distribution (C88_invalid_refuted). Proved: probabilities and residue up to count 2^-53 when the sum is less than one by more than count 2^-51 (C88_less), normalization without residue from one on (C88_more) and for all roundings of numbers which sum to one (C88_one), effect on containers (C88_apply)."
  },
  {
   "property": "C89",
   "status": "partial",
   "theorems": [
    "C89_int_on_double",
    "C89_int_on_double_only",
    "C89_range_refuted",
    "C89_impulse",
    "C89_kept_refuted",
    "C89_poisson_refuted",
    "C89_double_on_int",
    "C89_double_on_int_only"
   ],
   "note": "Refuted: the elements are converted to the type of the noise first, hence elements which impulse noise keeps lose their fractional part (C89_kept_refuted), elements out of its range are undefined behaviour although the output could be converted (C89_range_refuted), and positive elements less than one are invalid means of a Poisson noise of integers (C89_poisson_refuted). Proved: the result is that of the truncated elements, converted (C89_int_on_double), or the truncation of that of the converted elements (C89_double_on_int), exactly on these domains (C89_int_on_double_only, C89_double_on_int_only); impulse noise gives one of the values or the integral part of the element (C89_impulse)."
  },
  {
   "property": "C90",
   "status": "partial",
   "theorems": [
    "C90_frame",
    "C90_box_begin",
    "C90_box_copy",
    "C90_box_reset",
    "C90_box_history",
    "C90_box_progress",
    "C90_ball_begin",
    "C90_ball_copy",
    "C90_ball_history_partial",
    "C90_ball_progress_partial",
    "C90_ball_copy_refuted",
    "C90_sub_states",
    "C90_sub_begin",
    "C90_sub_copy",
    "C90_sub_history_partial",
    "C90_sub_progress_partial",
    "C90_sub_copy_refuted",
    "C90_postfix_refuted"
   ],
   "note": "Refuted: iterators over balls and subrasters hold box iterators which refer to a member of the iterator itself, hence a copy refers to its source, and incrementing it after the source is destroyed is undefined behaviour (C90_ball_copy_refuted), at the ends of rows for subrasters (C90_sub_copy_refuted); the postfix increments return where the iterator goes (C90_postfix_refuted). Proved: the full property but for the postfix increments for boxes (C90_box_*), and for balls and subrasters as long as the iterator which was copied lives (C90_ball_*, C90_sub_*); objects which are not touched do not change (C90_frame)."
  },
  {
   "property": "C91",
   "status": "partial",
   "theorems": [
    "C91_mean_partial",
    "C91_overflow_refuted",
    "C91_cancellation_refuted",
    "C91_range",
    "C91_linspace"
   ],
   "note": "Refuted: the mean overflows although it is representable, when the sum is not (C91_overflow_refuted). Proved: error bounds of the mean when the sum of the absolute values is at most 2^1022 (C91_mean_partial), of range (C91_range) and of linspace (C91_linspace). C91_cancellation_refuted shows that the error cannot be bounded relatively to the mean itself."
  },
  {
   "property": "C92",
   "status": "partial",
   "theorems": [
    "C92_copy",
    "C92_copy_assign",
    "C92_move",
    "C92_move_assign",
    "C92_write",
    "C92_kept",
    "C92_dangling",
    "C92_undefined",
    "C92_copy_refuted",
    "C92_allocation_refuted",
    "C92_overflow_refuted",
    "C92_moved_copy_refuted"
   ],
   "note": "Refuted: the copy of a buffer constructed by a move shares its elements, since the latter owns nothing (C92_moved_copy_refuted); failed allocations are not reported, so that a copy may be undefined (C92_copy_refuted) and a new buffer may have no accessible element (C92_allocation_refuted), as may one whose number of bytes overflows (C92_overflow_refuted). Proved: copies of owners (C92_copy, C92_copy_assign), moves (C92_move, C92_move_assign), writes through owners (C92_write), frame of all the operations (C92_kept), dangling (C92_dangling), and the characterisation of the undefined operations (C92_undefined)."
  },
  {
   "property": "C93",
   "status": "partial",
   "theorems": [
    "C93_median_translation",
    "C93_median_order",
    "C93_median_map",
    "C93_median_bounds",
    "C93_median_even_refuted",
    "C93_separable_translation",
    "C93_separable_order",
    "C93_separable_constant",
    "C93_border_refuted"
   ],
   "note": "Refuted for median filters with an even number of neighbors, whose result is not even determined by the image (C93_median_even_refuted), and for constant images at the borders of the domain, where kernels crop (C93_border_refuted). Proved: translation, order, increasing functions and bounds of median filters with an odd number of neighbors (C93_median_translation, C93_median_order, C93_median_map, C93_median_bounds); translation, order and constants of separable kernels of distinct axes and integers (C93_separable_translation, C93_separable_order, C93_separable_constant)."
  },
  {
   "property": "C94",
   "status": "partial",
   "theorems": [
    "C94_generate",
    "C94_apply",
    "C94_no_throw",
    "C94_inplace",
    "C94_in_order",
    "C94_new",
    "C94_operands",
    "C94_retry",
    "C94_retry_refuted",
    "C94_inplace_refuted"
   ],
   "note": "Refuted: in-place operators do not undo their changes (C94_inplace_refuted), and apply() cannot be called again (C94_retry_refuted). Proved: what is written and what is not (C94_generate, C94_apply, C94_inplace), strong guarantee of the operators which return a new instance (C94_new, C94_operands), second attempts of generate() (C94_retry); without exception the model is that of C15 and C19 (C94_no_throw, C94_in_order)."
  },
  {
   "property": "C95",
   "status": "proved",
   "theorems": [
    "C95_returns",
    "C95_linear",
    "C95_half",
    "C95_moved",
    "C95_first",
    "C95_energy",
    "C95_real_energy",
    "C95_conjugates",
    "C95_twice"
   ],
   "note": "For every FFTW which complies with its documentation (IsFftw), in exact arithmetic. Linearity of inverseRealDft is for halves of Hermitian rasters, the only inputs for which FFTW specifies its output."
  },
  {
   "property": "C96",
   "status": "partial",
   "theorems": [
    "C96_compare",
    "C96_order",
    "C96_order_decided",
    "C96_min_partial",
    "C96_max_partial",
    "C96_minmax_partial",
    "C96_min_refuted",
    "C96_position_refuted",
    "C96_equality",
    "C96_equality_refuted",
    "C96_zeros_refuted",
    "C96_mean",
    "C96_linear",
    "C96_cubic",
    "C96_filter_nan",
    "C96_filter_local"
   ],
   "note": "Extrema of values with NaN are refuted: undefined as soon as there are two different numbers, and dependent on the position of the NaN in usual implementations. Equality is refuted as an equivalence: it is reflexive exactly on rasters without NaN, and equal rasters may hold zeros of different signs. All NaN are identified in the model (payloads and signalling NaN are left out)."
  },
  {
   "property": "C97",
   "status": "partial",
   "theorems": [
    "C97_sums",
    "C97_defined_partial",
    "C97_signed_partial",
    "C97_ushort_refuted",
    "C97_mean_partial",
    "C97_mean_empty",
    "C97_mean_refuted",
    "C97_mad_partial",
    "C97_mad_unsigned",
    "C97_mad_refuted",
    "C97_filter_one",
    "C97_filter_two_partial",
    "C97_filter_to",
    "C97_filter_refuted"
   ],
   "note": "Refuted for several types: building a distribution squares all values in the promoted type, so that it is undefined for a single pixel over 46340 of type unsigned short or int even if only the median is queried (C97_ushort_refuted, C97_signed_partial); sums are stored in the pixel type, so that means of bytes are wrong (C97_mean_refuted); deviations of mad() may not fit (C97_mad_refuted); the even median filter overflows (C97_filter_refuted). Exact conditions are proved for each class of types. Conversions to double are exact in the model."
  },
  {
   "property": "C98",
   "status": "partial",
   "theorems": [
    "C98_new",
    "C98_transform_partial",
    "C98_round_trip_partial",
    "C98_real_padded",
    "C98_inverse_padded",
    "C98_real_refuted",
    "C98_real_small_refuted",
    "C98_inverse_refuted",
    "C98_normalize_refuted"
   ],
   "note": "Proved for complex transforms, distinct buffers and single rows (C98_transform_partial, C98_round_trip_partial), with the exact precondition on buffers (C98_new). Refuted for real transforms in place: FFTW then pads the rows of the real image, while in() and out() are contiguous: results are wrong for all shapes with two rows or more (C98_real_refuted, C98_inverse_refuted), normalize() misses elements (C98_normalize_refuted), and a buffer as large as in() is too small (C98_real_small_refuted). What is computed instead is proved (C98_real_padded, C98_inverse_padded)."
  },
  {
   "property": "C99",
   "status": "partial",
   "theorems": [
    "C99_element",
    "C99_rounding_partial",
    "C99_rounding_wide",
    "C99_nearest_whole",
    "C99_rounding_refuted",
    "C99_rounding_undefined_refuted",
    "C99_abs_partial",
    "C99_abs_refuted",
    "C99_sqrt_partial",
    "C99_sqrt_refuted",
    "C99_sqrt_negative",
    "C99_fmod_partial",
    "C99_fmod_scalar_partial",
    "C99_fmod_zero",
    "C99_fdim_partial",
    "C99_fdim_scalar_partial",
    "C99_fdim_refuted",
    "C99_logb_partial",
    "C99_logb_zero"
   ],
   "note": "What any function of <cmath> gives over integers is proved exactly (C99_element). The integer functions are obtained for values which are exactly doubles (C99_rounding_partial, C99_fmod_partial, C99_fmod_scalar_partial, C99_fdim_partial, C99_fdim_scalar_partial, C99_logb_partial) and for square roots up to 2^52 + 2^27 excluded (C99_sqrt_partial), abs() but for the least value (C99_abs_partial). Beyond, refuted: rounding functions change integers of 64 bits (C99_rounding_refuted) or are undefined (C99_rounding_undefined_refuted), which is characterised by C99_rounding_wide and C99_nearest_whole; sqrt() may exceed the root (C99_sqrt_refuted); abs() of the least value is negative or undefined (C99_abs_refuted); fdim() does not saturate (C99_fdim_refuted). Negative roots, null divisors and the exponent of zero are undefined (C99_sqrt_negative, C99_fmod_zero, C99_logb_zero)."
  },
  {
   "property": "C100",
   "status": "partial",
   "theorems": [
    "C100_linear_partial",
    "C100_linear_refuted",
    "C100_negative_refuted",
    "C100_cubic_partial",
    "C100_affine_partial",
    "C100_far_refuted"
   ],
   "note": "Error bounds for linear interpolation with respect to the mirrored formula of the library (C100_linear_partial), and for cubic interpolation with respect to cubic convolution (C100_cubic_partial, C100_affine_partial). Refuted: linear interpolation is far from what is meant, as the weights are swapped (C100_linear_refuted, see C43); negative integers are interpolated between the wrong pixels (C100_negative_refuted); cubic interpolation at -2^53 gives the previous pixel (C100_far_refuted). Missing: pixels of magnitude more than 2^999."
  },
  {
   "property": "C101",
   "status": "partial",
   "theorems": [
    "C101_bounds",
    "C101_half",
    "C101_parameters",
    "C101_noise",
    "C101_epsilon_partial",
    "C101_epsilon_refuted",
    "C101_almost_refuted"
   ],
   "note": "Proved for all binary formats: bounds, half limits, parameters of the default uniform noise and its sums (C101_bounds, C101_half, C101_parameters, C101_noise). Refuted: epsilon is the difference between consecutive values at one (C101_epsilon_partial), not elsewhere (C101_epsilon_refuted), hence almostMin and almostMax are the min and max themselves (C101_almost_refuted)."
  },
  {
   "property": "C102",
   "status": "partial",
   "theorems": [
    "C102_new",
    "C102_new_from",
    "C102_copy",
    "C102_move",
    "C102_copy_assign",
    "C102_move_assign",
    "C102_self_move",
    "C102_move_to",
    "C102_view",
    "C102_view_reads",
    "C102_write",
    "C102_destroy",
    "C102_pixels",
    "C102_defined",
    "C102_size_partial",
    "C102_size_refuted",
    "C102_follow_refuted"
   ],
   "note": "Effect of each operation proved in all histories (C102_new, C102_new_from, C102_copy, C102_move, C102_copy_assign, C102_move_assign, C102_self_move, C102_move_to, C102_view, C102_view_reads, C102_write, C102_destroy, C102_pixels, C102_defined). Refuted: the size is the capacity, even for rasters without a shape or moved from with variable dimension (C102_size_partial, C102_size_refuted), and views do not follow the moved pixels, contrary to those on a VecRaster (C102_follow_refuted)."
  },
  {
   "property": "C103",
   "status": "partial",
   "theorems": [
    "C103_region_partial",
    "C103_integers",
    "C103_integer_unique",
    "C103_to_double",
    "C103_rounded",
    "C103_doubles",
    "C103_double_unique",
    "C103_to_integer_partial",
    "C103_convert_first",
    "C103_keeps_order",
    "C103_nan",
    "C103_exact",
    "C103_zero_refuted",
    "C103_even_refuted",
    "C103_even_doubles_partial",
    "C103_even_integers_partial",
    "C103_even_to_integer_partial",
    "C103_even_to_double_partial",
    "C103_narrow_refuted",
    "C103_unsigned_refuted",
    "C103_signed_refuted",
    "C103_overflow_refuted"
   ],
   "note": "Proved for all types, windows and results of std::nth_element, for odd windows and ordered values (C103_region_partial, C103_integers, C103_to_double, C103_doubles, C103_to_integer_partial); the value is unique (C103_integer_unique, C103_double_unique) and conversions which keep the order commute with the filter (C103_convert_first, C103_keeps_order); the model of C40 is an instance (C103_exact). Even windows: C103_even_integers_partial, C103_even_doubles_partial, C103_even_to_integer_partial, C103_even_to_double_partial (between a value of the window and the one which is just over the middle, which are averaged; if nothing overflows). NaN with different numbers in a window is undefined behaviour (C103_nan). Refuted: the sign of a zero and, for even windows, the value itself depend on std::nth_element (C103_zero_refuted, C103_even_refuted); constant images are not kept by narrow output types and, for even windows, because of overflows of the sum (C103_narrow_refuted, C103_unsigned_refuted, C103_signed_refuted, C103_overflow_refuted)."
  },
  {
   "property": "C104",
   "status": "partial",
   "theorems": [
    "C104_schedules",
    "C104_any_moment",
    "C104_integers",
    "C104_single_call",
    "C104_distinct_cells",
    "C104_in_place_refuted"
   ],
   "note": "Proved for all interleavings: the result for any types (C104_schedules), a unique one for integers and odd windows, which is that of a single call (C104_integers, C104_single_call), at each moment (C104_any_moment), and writes in distinct cells (C104_distinct_cells). For even windows the value may depend on std::nth_element (C103), and C104_schedules states what remains. Refuted for filters in place, where pixels which are already filtered are read again (C104_in_place_refuted). Iterations of different calls are interleaved as a whole: with distinct cells and an input which is not written, this is enough."
  },
  {
   "property": "C105",
   "status": "proved",
   "theorems": [
    "C105_tasks",
    "C105_any_moment",
    "C105_overlap"
   ],
   "note": "C105_tasks (unique result of all the schedules, without data race), C105_any_moment, C105_overlap. The accesses to pixels are interleaved one by one, which is enough for programs without data race according to the C++ memory model."
  },
  {
   "property": "C106",
   "status": "proved",
   "theorems": [
    "C106_color",
    "C106_bounds",
    "C106_grey",
    "C106_rounding"
   ],
   "note": "C106_color (ranges and errors), C106_bounds (where the bounds are reached), C106_grey (which members are initialised; for greys see C77), C106_rounding (the hue is not exact in general)."
  },
  {
   "property": "C107",
   "status": "partial",
   "theorems": [
    "C107_quantile",
    "C107_mad",
    "C107_odd",
    "C107_constant",
    "C107_exact",
    "C107_refuted",
    "C107_order_refuted"
   ],
   "note": "C107_quantile, C107_mad, C107_odd, C107_constant. Refuted: the least positive double is lost for an even number of values (C107_refuted), and the median is wrong if the first reference is read after the second one is requested (C107_order_refuted), which the language allows. C107_constant excludes an even number of odd multiples of the least double."
  },
  {
   "property": "C108",
   "status": "partial",
   "theorems": [
    "C108_shift",
    "C108_own_front",
    "C108_refuted",
    "C108_new",
    "C108_margin",
    "C108_scalar",
    "C108_ball"
   ],
   "note": "C108_shift, C108_margin, C108_scalar, C108_ball, C108_new. Refuted for a box shifted in place by its own front: its back is shifted by the already modified front (C108_own_front, C108_refuted)."
  },
  {
   "property": "C109",
   "status": "partial",
   "theorems": [
    "C109_recursive",
    "C109_independent",
    "C109_raster",
    "C109_nearest",
    "C109_refuted",
    "C109_line",
    "C109_line_refuted"
   ],
   "note": "C109_recursive gives the result in general: a recursive filter. It is the expected one if nothing already filtered is read (C109_independent), in particular if the window has no negative offset (C109_raster, C109_nearest) or the kernel no backward value (C109_line). Refuted otherwise (C109_refuted, C109_line_refuted). SeparableKernel, which computes into temporary rasters, is right by reading. ND kernels in place: C115. Windows of even size, for which the median itself is wrong: C40_even_refuted."
  },
  {
   "property": "C110",
   "status": "partial",
   "theorems": [
    "C110_extrapolator",
    "C110_interpolator",
    "C110_nested",
    "C110_chain",
    "C110_copy",
    "C110_dangling",
    "C110_moved_refuted",
    "C110_refuted",
    "C110_reference",
    "C110_reference_refuted"
   ],
   "note": "C110_extrapolator, C110_interpolator, C110_nested, C110_chain (decorators of decorators, however many), C110_copy, C110_reference, for as long as all the objects of the chain live; C110_dangling otherwise. Refuted as stated: interpolate(extrapolate(raster)) refers to the temporary extrapolator (C110_refuted), references to the constant out of the domain refer to the extrapolator (C110_reference_refuted), and decorators do not follow the pixels of a raster which is moved (C110_moved_refuted). Extrapolators of decorators do not compile."
  },
  {
   "property": "C111",
   "status": "partial",
   "theorems": [
    "C111_history",
    "C111_get",
    "C111_duration",
    "C111_cached",
    "C111_cached_refuted",
    "C111_endless",
    "C111_endless_value",
    "C111_refuted"
   ],
   "note": "C111_history, C111_get, as long as no step uses itself, even indirectly, nor resets the pipeline; steps may use the pipeline both when they are evaluated and when their values are returned. C111_cached: a call for an evaluated step evaluates nothing if values are returned without asking for other steps; otherwise, refuted (C111_cached_refuted). C111_endless, C111_endless_value: steps which use each other recurse endlessly. Refuted as stated: a step which resets the pipeline is known as evaluated whereas those it needs are not (C111_refuted)."
  },
  {
   "property": "C112",
   "status": "partial",
   "theorems": [
    "C112_read_only",
    "C112_race",
    "C112_twice",
    "C112_refuted",
    "C112_serial",
    "C112_serial_value",
    "C112_finite",
    "C112_throw_read_only",
    "C112_throw_same_race",
    "C112_throw_race",
    "C112_throw_serial",
    "C112_throw_finite"
   ],
   "note": "C112_read_only (all the requested steps and those they need are evaluated already: no race, no change, right values), C112_serial and C112_serial_value (calls made one at a time, by any threads in any order), C112_finite. Refuted as stated (C112_refuted, and evaluateGet says so: FIXME not thread-safe): C112_race shows that there is a data race in some interleaving as soon as one request is about a step which is not evaluated and another thread has any request, and C112_twice that a step may be evaluated twice even if the map were atomic. With steps and values which may throw: C112_throw_read_only, C112_throw_serial, C112_throw_finite, C112_throw_race (a call which evaluates some step with success races with any other), C112_throw_same_race (a call which evaluates some step, with success or not, races with the same call). Steps do not use the pipeline themselves here (C111)."
  },
  {
   "property": "C113",
   "status": "partial",
   "theorems": [
    "C113_partial",
    "C113_unique_partial",
    "C113_window_partial",
    "C113_integers_partial",
    "C113_doubles_partial",
    "C113_truncated_partial",
    "C113_whole_partial",
    "C113_mixed_refuted",
    "C113_origin_refuted"
   ],
   "note": "C113_partial (any types: undefined behaviour if and only if that of some position, else each position has the weighted sum of the pixels which are read for it), C113_unique_partial, C113_window_partial (these are the pixels of the window, with the exceptions of C39), C113_integers_partial, C113_doubles_partial, C113_truncated_partial, C113_whole_partial (kernel of signed integers, pixels of doubles which are whole numbers, no overflow: exact). Refuted as stated: C113_origin_refuted (any types: a window which fits but does not contain the origin is undefined behaviour), C113_mixed_refuted (kernel of integers, pixels of doubles: each partial sum is truncated in the inner region, and the pixels are truncated in the borders, such that the response to a constant image is not constant), and C39_row_refuted, C39_plane_refuted for the pixels which are read. The suffix is that of C39: the pixels read for the first inner position of a row are not those of the window. Kernels in place: C115."
  },
  {
   "property": "C114",
   "status": "partial",
   "theorems": [
    "C114_elements_partial",
    "C114_count_partial",
    "C114_empty_partial",
    "C114_integers_partial",
    "C114_null_step_refuted",
    "C114_moves_partial",
    "C114_half_refuted",
    "C114_exceeds_refuted",
    "C114_misses_refuted",
    "C114_stuck_refuted",
    "C114_endless_refuted",
    "C114_default_refuted"
   ],
   "note": "C114_elements_partial (as many values as the size, value i is front + i step up to i roundings, never decreasing), C114_count_partial (the size is exact up to one), C114_empty_partial, C114_integers_partial (same run as the sampling of indices), C114_moves_partial. Refuted as stated: C114_exceeds_refuted (0 to 0.3 by 0.1: the last value is greater than back), C114_misses_refuted (0 to 0.7 by 0.1: one value is missing), C114_stuck_refuted (repeated values), C114_endless_refuted (more than 2^53 values: the loop never ends), C114_null_step_refuted, C114_default_refuted (size() is undefined), C114_half_refuted. Missing: more than 2^50 values, bounds which overflow."
  },
  {
   "property": "C115",
   "status": "partial",
   "theorems": [
    "C115_forward_partial",
    "C115_other_partial",
    "C115_nearest_partial",
    "C115_constant_partial",
    "C115_order_partial",
    "C115_unique_partial",
    "C115_backward_refuted",
    "C115_rows_refuted",
    "C115_periodic_refuted",
    "C115_origin_refuted"
   ],
   "note": "C115_forward_partial: true of windows without negative offset, for any dimension, types, values and outcome, if the extrapolation reads pixels at or after the positions only; so are those by the nearest pixel and by a constant (C115_nearest_partial, C115_constant_partial). C115_other_partial: this is the result in any other raster, whatever its initial pixels. Refuted as stated: C115_backward_refuted and C115_rows_refuted (negative offset along the first axis or another one), C115_periodic_refuted (periodic extrapolation). C115_order_partial: what is computed in general, also with negative offsets or a periodic extrapolation: pixels are replaced one after the other in a given order, each of them gets what the kernel gives for the raster as the former replacements left it; C115_unique_partial: there is one such outcome. C115_origin_refuted: a window which fits in the raster but does not contain the origin is undefined behaviour. Missing: windows which do not fit in the raster."
  },
  {
   "property": "C116",
   "status": "partial",
   "theorems": [
    "C116_partial",
    "C116_outside_refuted",
    "C116_beyond_refuted",
    "C116_overwritten_refuted",
    "C116_endless_refuted"
   ],
   "note": "C116_partial: true of windows which are at most one longer than the raster along the axes beyond the first one, and either exactly one longer along some axis, or longer along the first one while they do not go beyond the current position by more than the length of the raster. Refuted as stated: C116_outside_refuted (dimension 1: a window which goes before or after the position by more than the length writes out of the raster) and C116_endless_refuted (windows two or more longer along another axis: the correlation does not end). In dimension 2 and above: C116_beyond_refuted (undefined behaviour if the window fits along the other axes, and does not go there after, respectively before, the position) and C116_overwritten_refuted (otherwise values computed out of a row overwrite those of the former one). Missing: what exactly is computed in the latter case."
  },
  {
   "property": "C117",
   "status": "proved",
   "theorems": [
    "C117_first_last",
    "C117_write",
    "C117_index",
    "C117_raster",
    "C117_view"
   ],
   "note": "C117_first_last, C117_write, C117_index for containers, C117_raster for rasters, C117_view for rasters which point to the memory of others."
  },
  {
   "property": "C118",
   "status": "partial",
   "theorems": [
    "C118_apart",
    "C118_own",
    "C118_parallel",
    "C118_conflict",
    "C118_inverse_shares",
    "C118_inverse_refuted",
    "C118_swap_refuted"
   ],
   "note": "Holds for plans which have no byte in common (C118_apart), in particular for distinct plans which own their arrays (C118_own, C118_parallel), in histories in which the buffers of plans are not reassigned through in() or out(). Refuted for a plan and its inverse(), which share their arrays (C118_inverse_shares): they race (C118_inverse_refuted), as do threads with conflicting accesses in general (C118_conflict), and the result may be that of no order (C118_swap_refuted). FFTW's private temporaries are not modelled."
  },
  {
   "property": "C119",
   "status": "partial",
   "theorems": [
    "C119_end",
    "C119_clean",
    "C119_no_assignment",
    "C119_assign_refuted",
    "C119_cleanup",
    "C119_first",
    "C119_first_exit",
    "C119_holder_refuted",
    "C119_user_refuted",
    "C119_users_refuted"
   ],
   "note": "Characterised (C119_end): holds if and only if the objects of static storage duration which hold plans or make transforms in their destructor were constructed after the first plan (or no plan was constructed and at most one such destructor makes transforms); then FFTW is cleaned up once and last, and the plans are destroyed exactly except those which others were assigned to (C119_clean, C119_cleanup), hence all if there are no assignments (C119_no_assignment). In particular, holds if a plan is constructed first (C119_first, C119_first_exit). Refuted for an optional plan of static storage duration which is constructed before (C119_holder_refuted), for destructors which make transforms (C119_user_refuted, C119_users_refuted), and as for destruction, for assignments (C119_assign_refuted). Failures of FFTW's planner are not modelled here."
  },
  {
   "property": "C120",
   "status": "partial",
   "theorems": [
    "C120_disjoint",
    "C120_one_planner",
    "C120_in_turn",
    "C120_inverse",
    "C120_planners_refuted",
    "C120_inverse_refuted"
   ],
   "note": "Holds for threads which access disjoint bytes (C120_disjoint), hence for threads which use different plans that own their arrays, and the inverses thereof (C120_inverse), if at most one of them creates or destroys plans (C120_one_planner); each performs its tasks in turn (C120_in_turn). Refuted for two threads which create plans (C120_planners_refuted), and for the creation of an inverse while the plan is executed (C120_inverse_refuted). The memory allocation of the plans created by threads is done before: histories of plans are sequential."
  },
  {
   "property": "C121",
   "status": "partial",
   "theorems": [
    "C121_short_partial",
    "C121_requested",
    "C121_any",
    "C121_long_refuted",
    "C121_truncated_refuted",
    "C121_null_refuted"
   ],
   "note": "Characterised (C121_any): FFTW gets the lengths modulo 2^32, and accesses the first elements of the buffers only. Holds if the lengths are less than 2^31 and FFTW has a plan (C121_short_partial), and these are the only plans of the requested shape (C121_requested). Refuted: with a length of at least 2^31, the transform either ignores some values and leaves others unset, silently (C121_long_refuted, C121_truncated_refuted), or, as for null lengths, FFTW gives a null plan which is executed without a test (C121_null_refuted). FFTW's planner is any function of the transform and dimensions which refuses non-positive lengths."
  },
  {
   "property": "C122",
   "status": "partial",
   "theorems": [
    "C122_alone",
    "C122_copy_partial",
    "C122_copy_values_partial",
    "C122_assign_partial",
    "C122_move",
    "C122_move_assign",
    "C122_source_partial",
    "C122_source_refuted",
    "C122_copy_refuted"
   ],
   "note": "Holds if the copies of the data members of the derived class are equal to them (C122_copy_partial, C122_copy_values_partial, C122_assign_partial), always for the destination of moves (C122_move, C122_move_assign) and for the independence of pipelines (C122_alone). The steps of a pipeline which was moved from are not evaluated if the standard library leaves moved maps empty (C122_source_partial). Refuted otherwise: the source may take lost values for evaluated ones (C122_source_refuted), and so may a copy whose data members are not copied (C122_copy_refuted), because the set of evaluated steps is copied apart from the values."
  }
 ]
}