{
 "claims": [
  {
   "property": "C01",
   "status": "partial",
   "theorems": [
    "C01_slice_construction_partial",
    "C01_slice_chain_partial",
    "C01_zero_step",
    "C01_refuted"
   ],
   "note": "Proved for all slices except backward slices whose stop is below -n-1; there the code does not clamp (C01_refuted)."
  },
  {
   "property": "C02",
   "status": "partial",
   "theorems": [
    "C02_integer_selection_partial",
    "C02_repeated_refuted"
   ],
   "note": "Proved for every list of in-range positions except two or more copies of one position, for which the length cannot be computed (C02_repeated_refuted, for all such lists)."
  },
  {
   "property": "C03",
   "status": "partial",
   "theorems": [
    "C03_construction_partial",
    "C03_construction_succeeds",
    "C03_full_slice_refuted",
    "C03_two_full_slices_refuted"
   ],
   "note": "Proved on ctor_safe selections; tuples with interior full slices are misaligned or rejected (refuted)."
  },
  {
   "property": "C04",
   "status": "proved",
   "theorems": [
    "C04_ordering",
    "C04_ordering_succeeds",
    "C04_bad_ordering_shape",
    "C04_slice_meaning_refuted"
   ],
   "note": "The refuted companion records that a slice selects rows with an ordering and elements without."
  },
  {
   "property": "C05",
   "status": "proved",
   "theorems": [
    "C05_pack",
    "C05_pack_mismatch",
    "C05_empty_refuted"
   ],
   "note": "For reachable tables; reachable excludes slicing an empty table from an explicit start (C05_empty_refuted)."
  },
  {
   "property": "C06",
   "status": "proved",
   "theorems": [
    "C06_unpack",
    "C06_duplicates_refuted"
   ],
   "note": "For reachable tables (positions without duplicates)."
  },
  {
   "property": "C07",
   "status": "proved",
   "theorems": [
    "C07_pack_unpack",
    "C07_unpack_pack"
   ],
   "note": ""
  },
  {
   "property": "C08",
   "status": "proved",
   "theorems": [
    "C08_removed"
   ],
   "note": ""
  },
  {
   "property": "C09",
   "status": "partial",
   "theorems": [
    "C09_compose_partial",
    "C09_reachable_consistent",
    "C01_slice_chain_partial",
    "C09_reverse_refuted",
    "C09_negative_refuted"
   ],
   "note": "Forward slices, masks and in-range lists on every consistent table; backward slices on tables without array attributes; the rest is refuted."
  },
  {
   "property": "C10",
   "status": "proved",
   "theorems": [
    "C10_aligned"
   ],
   "note": ""
  },
  {
   "property": "C100",
   "status": "partial",
   "theorems": [
    "C100_dense_partial",
    "C100_dense_explicit",
    "C100_dense_applies",
    "C100_left",
    "C100_sides",
    "C100_shapes",
    "C100_matrix_shapes",
    "C100_one_row_refuted",
    "C100_planes_refuted"
   ],
   "note": "Partial: implicit input shapes with a single dimension other than one after that of the matrix. Refuted: with more, the dense form has too many rows and columns."
  },
  {
   "property": "C101",
   "status": "partial",
   "theorems": [
    "C101_mask_partial",
    "C101_blocks_refuted",
    "C101_rotation_refuted",
    "C101_shape_refuted"
   ],
   "note": "Partial: no blocks; the first value of a rotation of three components is zero only if the others are; one dimension without compiled code. Refuted otherwise."
  },
  {
   "property": "C102",
   "status": "partial",
   "theorems": [
    "C102_division",
    "C102_slices",
    "C102_blocks",
    "C102_distribution",
    "C102_sides",
    "C102_slices_refuted"
   ],
   "note": "Partial: integers below 2^53 (2^51 to 2^52 where sums are taken). Refuted from 2^53 on."
  },
  {
   "property": "C103",
   "status": "partial",
   "theorems": [
    "C103_packed",
    "C103_constant",
    "C103_unpacked",
    "C103_unknown",
    "C103_objects_refuted"
   ],
   "note": "Partial: functions and bound methods. Objects with a __call__ method are refuted: their self is counted."
  },
  {
   "property": "C104",
   "status": "partial",
   "theorems": [
    "C104_SI",
    "C104_inunit",
    "C104_broadcast",
    "C104_leftward_refuted",
    "C104_nested_refuted"
   ],
   "note": "Partial: SI for derived units with axes that are not defined from one another; conversion for rightward derived units with the same axes. The other cases are refuted."
  },
  {
   "property": "C105",
   "status": "partial",
   "theorems": [
    "C105_new",
    "C105_item",
    "C105_no_copy_same",
    "C105_tounit",
    "C105_inunit",
    "C105_result",
    "C105_pickle",
    "C105_slice_refuted",
    "C105_no_copy_refuted",
    "C105_no_copy_integers_refuted",
    "C105_dictionary_refuted"
   ],
   "note": "Partial: one dimension, two kinds of numbers, the conversion factor as a parameter. Refuted: slices converted in place, copy=False, units given as dictionaries."
  },
  {
   "property": "C106",
   "status": "partial",
   "theorems": [
    "C106_values",
    "C106_history",
    "C106_module_refuted",
    "C106_nested_refuted"
   ],
   "note": "Partial: scalars without header, derived units that are quantities, conversions that succeed. Refuted for the quantities that are themselves in a table: their derived units are overwritten."
  },
  {
   "property": "C107",
   "status": "partial",
   "theorems": [
    "C107_groups_partial",
    "C107_agree_partial",
    "C107_distributed_refused",
    "C107_alias_refuted",
    "C107_agree_refuted",
    "C107_copy_refuted"
   ],
   "note": "Partial: no slice selects all the elements of a distributed table on a process. Refuted otherwise: the table of the selection is then that of the acquisition it is selected in, whose communicator is replaced; processes of a communicator then have different ones. Copies of tables fail."
  },
  {
   "property": "C108",
   "status": "partial",
   "theorems": [
    "C108_direct",
    "C108_transpose",
    "C108_adjoint",
    "C108_scene",
    "C108_selected",
    "C108_selected_refuted"
   ],
   "note": "Proved for acquisitions as they are made, and for selections in terms of what the processes of the communicator hold. Refuted: acq[:n] selects the first n detectors of each process, not the first n detectors, and the processes have different maps. Exact arithmetic; the block column and distribution operators are third party."
  },
  {
   "property": "C109",
   "status": "partial",
   "theorems": [
    "C109_values_partial",
    "C109_card",
    "C109_describes_partial",
    "C109_slice_refuted",
    "C109_read_refuted",
    "C109_nocopy_refuted",
    "C109_astype_refuted",
    "C109_describes_refuted"
   ],
   "note": "Proved for programs that do not write in a header which several arrays were given (values), and for those that make parts and results of another shape or type only from arrays whose header does not exist yet (description). Refuted otherwise: parts and results share the header of the array and keep its structure, copy=False gives the header to the first array, astype to booleans or complex numbers fails when the header has been read."
  },
  {
   "property": "C11",
   "status": "proved",
   "theorems": [
    "C11_split"
   ],
   "note": ""
  },
  {
   "property": "C110",
   "status": "partial",
   "theorems": [
    "C110_adjacent_partial",
    "C110_one",
    "C110_convertible_partial",
    "C110_row_refuted",
    "C110_function_refuted",
    "C110_list_refuted",
    "C110_mask_refuted",
    "C110_mask_leftward_refuted",
    "C110_separated_refuted",
    "C110_separated_integer_refuted",
    "C110_ellipsis_refuted",
    "C110_ellipsis_end",
    "C110_last_refuted",
    "C110_unbracketed",
    "C110_find"
   ],
   "note": "Proved for tuples in which the index arrays, masks of one dimension and integers follow each other, for both directions and all ranks. Refuted otherwise: lists, masks of several dimensions, index arrays separated by a slice, an ellipsis behind an array; conversions of rows whose derived unit has become a number. Sizes, negative indices and index arrays of several dimensions are not modelled."
  },
  {
   "property": "C111",
   "status": "partial",
   "theorems": [
    "C111_error",
    "C111_error_new_output",
    "C111_schedules",
    "C111_no_overflow",
    "C111_integers",
    "C111_fused",
    "C111_fused_new_output",
    "C111_columns_refuted"
   ],
   "note": "Proved for the compiled kernels of every class: rounding to the nearest even with gradual underflow. Refuted: the result of the column formats does not depend on the schedule. Without overflow, or for the cells whose magnitude and error stay below it. Contracted products and additions: C111_fused. Mixed precisions that are not exact and the order of the sums of the NumPy fallbacks are not modelled."
  },
  {
   "property": "C112",
   "status": "partial",
   "theorems": [
    "C112_sum",
    "C112_masked",
    "C112_order",
    "C112_dimensions",
    "C112_norms",
    "C112_normp",
    "C112_cancellation_refuted"
   ],
   "note": "Proved for all lists of at most 2^prec numbers of at least 8 bits. Refuted: the sum rounded once (C52 needs the corrections to be exact). Overflow, fused operations and reassociation by the compiler are not modelled."
  },
  {
   "property": "C113",
   "status": "partial",
   "theorems": [
    "C113_moments",
    "C113_skewness",
    "C113_kurtosis",
    "C113_constant_refuted"
   ],
   "note": "Proved for mean, mean deviation, variance and standard deviation, and for skewness and kurtosis when the bound on the power of the standard deviation is below it. Refuted: the deviation of equal samples is zero, so that skewness and kurtosis of equal samples may be numbers instead of NaN.  Overflow and fused operations are not modelled."
  },
  {
   "property": "C114",
   "status": "partial",
   "theorems": [
    "C114_direct_inplace",
    "C114_direct",
    "C114_transpose",
    "C114_steady",
    "C114_long_refuted"
   ],
   "note": "Proved for the direct routines and for the transpose into another array. Refuted: from 2^(prec+2) samples on the weight rounds to one and the transpose divides by zero. The transpose in place is not the transpose (C26_transpose_inplace_refuted). Products and additions may be contracted or not. Overflow is not modelled."
  },
  {
   "property": "C115",
   "status": "partial",
   "theorems": [
    "C115_accepted",
    "C115_refused",
    "C115_not_strings",
    "C115_attributes",
    "C115_array",
    "C115_reserved_refuted",
    "C115_repeated_refuted",
    "C115_string"
   ],
   "note": "Proved for all arguments. Refuted: a flag named KEEP, MASK or REMOVE is accepted and the conversion then raises when the value of that name is in use; a flag stated twice is accepted, and its first value is lost. Characters are bytes."
  },
  {
   "property": "C116",
   "status": "partial",
   "theorems": [
    "C116_reshape",
    "C116_contiguous",
    "C116_validatein",
    "C116_wcs",
    "C116_wcs_lost",
    "C116_wcs_refuted",
    "C116_matvec",
    "C116_matvec_refuses",
    "C116_restrict",
    "C116_restrict_lost",
    "C116_restrict_refuted",
    "C116_restrict_raises",
    "C116_unpack",
    "C116_mask",
    "C116_pT1",
    "C116_pT1_lost",
    "C116_pT1_refuted",
    "C116_transpose",
    "C116_erased_refuted",
    "C116_direct",
    "C116_direct_refuted"
   ],
   "note": "Proved for products, unpack and masks of detectors. Refuted for the WCS operators when the first axes of the output do not merge, and for restrict in place, pT1 and pTx_pT1 with an output that is not contiguous: nothing is written there. Refuted for projections in memory: outputs whose strides increase are refused by direct, and transpose erases the output that it refuses. Proved otherwise, with the exact conditions. NumPy's rules on views and copies are modelled; the transforms, the kernels and the types are parameters."
  },
  {
   "property": "C117",
   "status": "partial",
   "theorems": [
    "C117_right_angles",
    "C117_other_angles",
    "C117_rotate_refuted",
    "C117_rectangle",
    "C117_rectangle_refuted",
    "C117_polygon"
   ],
   "note": "Polygons: proved. Rotations: proved for multiples of 90 degrees; for any other angle all points are sent to the origin (refuted). Rectangles and squares of integer type are always a point (refuted). Exact real numbers: with rounded cosines the multiples of 90 degrees still give -1, 0 or 1 only if the library is accurate, which is not modelled."
  },
  {
   "property": "C118",
   "status": "partial",
   "theorems": [
    "C118_dot_test",
    "C118_bound",
    "C118_exact_refuted"
   ],
   "note": "Proved with the bound; the exact equality holds for exact arithmetic (C17) and is refuted for rounded operations. The inner products themselves are exact; no overflow."
  },
  {
   "property": "C119",
   "status": "partial",
   "theorems": [
    "C119_fits",
    "C119_sizes_refuted",
    "C119_first_refuted",
    "C119_witness_refuted",
    "C119_index",
    "C119_index_refuted"
   ],
   "note": "Proved below 2^31 samples and up to 2^31 pixels. Refuted beyond: from 2^31 to 2^32 - 1 samples nothing is done, from 2^32 on only the first samples are, and maps of more than 2^31 pixels have negative indices. The conversion of a size to a default integer is taken modulo 2^32 (gfortran). pmatrix_mask and pmatrix_pack, whose counters are 64-bit integers, are not included."
  },
  {
   "property": "C12",
   "status": "proved",
   "theorems": [
    "C12_scatter_gather",
    "C12_gather_array",
    "C12_gather_twice_refuted"
   ],
   "note": "The refuted companion records gathering twice and gathering after a local sub-selection."
  },
  {
   "property": "C120",
   "status": "partial",
   "theorems": [
    "C120_matrix",
    "C120_flux",
    "C120_behind_refuted"
   ],
   "note": "The coordinates and areas are exact, then rounded to single precision, and the samples are done in order (several threads can lose the required number of elements: C66_width_refuted). Refuted: a detector behind the tangent plane has pixels of the map with positive values."
  },
  {
   "property": "C121",
   "status": "partial",
   "theorems": [
    "C121_direct",
    "C121_transpose",
    "C121_ptp",
    "C121_dot",
    "C121_integers",
    "C121_order_refuted"
   ],
   "note": "Overflows are not modelled: the numbers of the format have no largest one. Refuted: that the result does not depend on the order of the atomic additions."
  },
  {
   "property": "C122",
   "status": "partial",
   "theorems": [
    "C122_distance",
    "C122_distance2_refuted",
    "C122_aperture_partial",
    "C122_aperture_refuted",
    "C122_airy",
    "C122_airy_refuted",
    "C122_profile",
    "C122_profile_refuted"
   ],
   "note": "Refuted: the squared distance has the unit of the scale instead of its square, so that a diameter with the unit of the scale is refused by aperture_circular (whose mask has a unit); the units of the widths of Airy patterns and of the bins of profiles are ignored. C122_airy and C122_profile say that the values are those of the numbers, which is right when the units are those of the scale or when there is none; C122_aperture_partial only deals with diameters without unit. scipy.special.jn is a parameter; it is taken to be a universal function which returns an array without unit."
  },
  {
   "property": "C123",
   "status": "partial",
   "theorems": [
    "C123_fromfits",
    "C123_axes",
    "C123_startswith1_refuted",
    "C123_integration",
    "C123_extra_refuted"
   ],
   "note": "Refuted: with startswith1, that the columns and rows of the elements are the coordinates that the transform numbers; that scenes without removed element are accepted (those with more than two axes are not). To1dOperator belongs to pyoperators and is modelled as the scalar product by the strides; the areas are those of C33, in exact arithmetic."
  },
  {
   "property": "C124",
   "status": "partial",
   "theorems": [
    "C124_default",
    "C124_unpack",
    "C124_types_refuted"
   ],
   "note": "Refuted for dates, durations, opaque bytes, arrays inside of fields and fields with a title, which raise an exception. Elements of one dimension; the values themselves are symbols (that an unsigned 0 is also a valid value is not discussed)."
  },
  {
   "property": "C125",
   "status": "proved",
   "theorems": [
    "C125_qr",
    "C125_matrix",
    "C125_frame",
    "C125_examples",
    "C125_spherical",
    "C125_round_trip",
    "C125_samplings"
   ],
   "note": "Exact real arithmetic. np.linalg.qr is modelled as LAPACK's Householder factorisation (unblocked); the conversions of pyoperators between angles and vectors as their definitions, with any arctangent that is right."
  },
  {
   "property": "C126",
   "status": "partial",
   "theorems": [
    "C126_rotation",
    "C126_stored",
    "C126_inputs",
    "C126_pole_refuted"
   ],
   "note": "The bound holds for directions further than 64 sqrt(u) from the poles of both frames (4096 u <= W: 0.14 seconds of arc in real64); C126_pole_refuted: at 2^-27 radians from a pole the frame is not finite (finding 207). Overflow and contracted operations (FMA) are not modelled."
  },
  {
   "property": "C127",
   "status": "partial",
   "theorems": [
    "C127_pixel",
    "C127_row",
    "C127_pointing",
    "C127_untouched_refuted"
   ],
   "note": "The three bounds are proved; C127_untouched_refuted: a triangle above a pixel has an element 2^-54 for it (finding 208). Overflow and contracted operations (FMA) are not modelled."
  },
  {
   "property": "C128",
   "status": "partial",
   "theorems": [
    "C128_array",
    "C128_unchanged",
    "C128_order",
    "C128_tod",
    "C128_map_partial",
    "C128_interpolation_refuted",
    "C128_figure_refuted",
    "C128_colorbar_refuted",
    "C128_ds9_new",
    "C128_current_refuted"
   ],
   "note": "Real images; percentiles of scipy as documented. Refuted: the interpolation of maps without astrometry or kapteyn is ignored; with both, the current figure cannot be used and the color bar is never drawn; nor can the running ds9."
  },
  {
   "property": "C129",
   "status": "partial",
   "theorems": [
    "C129_constructor",
    "C129_item",
    "C129_iterate",
    "C129_split",
    "C129_scatter",
    "C129_pack",
    "C129_no_name",
    "C129_imager_partial",
    "C129_keywords_refuted",
    "C129_both_refuted",
    "C129_anonymous_refuted"
   ],
   "note": "Refuted: of two transforms that are given, the second is ignored; an imager without a name has no detector; the documented keywords of pack and unpack are refused. The sharing of the arrays is C14."
  },
  {
   "property": "C13",
   "status": "partial",
   "theorems": [
    "C13_distributed_unpack_partial",
    "C13_one_value",
    "C13_wrong_size",
    "C13_empty_refuted"
   ],
   "note": "Proved for every non-empty table, every number of ranks and every order of writing; refuted for scattered empty tables."
  },
  {
   "property": "C130",
   "status": "partial",
   "theorems": [
    "C130_imsave",
    "C130_plot",
    "C130_ds9_partial",
    "C130_integers_partial",
    "C130_imsave_refuted",
    "C130_origin_refuted",
    "C130_order_refuted",
    "C130_integers_refuted",
    "C130_no_detector_refuted"
   ],
   "note": "Proved for arrays without astrometry, for arrays that are not maps or are given no origin, and for at least one detector. Refuted: maps with astrometry cannot be saved with kapteyn, and the interactive mode is not restored; displaying a map with an origin changes the map; arrays in another order are refused (NumPy 2); integers beyond 32 bits are displayed as others."
  },
  {
   "property": "C131",
   "status": "partial",
   "theorems": [
    "C131_plot_partial",
    "C131_acquisition",
    "C131_header_refuted",
    "C131_figure_refuted",
    "C131_integers_refuted"
   ],
   "note": "Proved when there is a header, in a new figure over maps with astrometry, for boolean masks. Refuted: without map and header nothing can be plotted (get_map_header does not exist); the current figure cannot be used over a map with astrometry; with masks of integers other pointings are erased. kapteyn is installed and gives the pixels."
  },
  {
   "property": "C132",
   "status": "proved",
   "theorems": [
    "C132_plane",
    "C132_inverse",
    "C132_pixel",
    "C132_rounded"
   ],
   "note": "The sine and cosine of the library are within two units of rounding, DEG2RAD and RAD2DEG within three relatively (C132_rounded: functions and constants rounded to nearest are); angles up to 360 and 90 degrees; the cosine of the distance to the reference is at least 4096 units. No overflow."
  },
  {
   "property": "C133",
   "status": "partial",
   "theorems": [
    "C133_surface",
    "C133_rotation",
    "C133_grid",
    "C133_translation_refuted"
   ],
   "note": "Proved against the exact surface, rotation and grid for every angle whose error is below an eighth. Refuted: the error of the surface follows the distance to the origin; that of a triangle of double precision numbers is found zero. The library's functions and constants as in C132; no overflow, no fused operations."
  },
  {
   "property": "C134",
   "status": "proved",
   "theorems": [
    "C134_direction",
    "C134_element",
    "C134_inside",
    "C134_whole"
   ],
   "note": "Against the exact direction of C98 and the rays of C66, for detectors within one degree of the boresight and directions in front of the tangent plane. C134_whole joins the two: the index is that of the exact direction of the detector unless it is seen within the error of both of a border. The library's functions and constants as in C132; no overflow, no fused operations."
  },
  {
   "property": "C135",
   "status": "partial",
   "theorems": [
    "C135_time",
    "C135_frame",
    "C135_convention",
    "C135_range_refuted"
   ],
   "note": "Against the formulas of C43. Partial because the code can give a local sidereal time of exactly 24 (C135_range_refuted); the bound proved is 0 to 24 included. Scalar dates; the library's functions and constants as in C132; numpy's remainder is that of its source (fmod then addition); no overflow."
  },
  {
   "property": "C136",
   "status": "partial",
   "theorems": [
    "C136_tod",
    "C136_words",
    "C136_table",
    "C136_lines",
    "C136_detectors_refuted",
    "C136_none_refuted",
    "C136_lines_refuted",
    "C136_values_refuted"
   ],
   "note": "Partial because with more than two dimensions the number given as that of the detectors is that of one block (C136_detectors_refuted), zero is written in the singular (C136_none_refuted) and values of two dimensions break the lines (C136_lines_refuted). The texts of arrays and values are given."
  },
  {
   "property": "C137",
   "status": "partial",
   "theorems": [
    "C137_nodes",
    "C137_shapes",
    "C137_errors",
    "C137_scalar_refuted",
    "C137_cards",
    "C137_header_refuted",
    "C137_end_refuted"
   ],
   "note": "Partial because str2fitsheader calls a method that headers of astropy do not have (C137_header_refuted); the cards are those it would give with such a method. The interpolator of scipy is a parameter that goes through its values at distinct nodes; nothing is claimed between the nodes."
  },
  {
   "property": "C138",
   "status": "partial",
   "theorems": [
    "C138_polygons_partial",
    "C138_grey_refuted",
    "C138_vertices",
    "C138_circles",
    "C138_units_refuted",
    "C138_markers",
    "C138_markers_refuted",
    "C138_transform"
   ],
   "note": "Partial because a tuple of texts of grey levels for the components is taken for one colour (C138_grey_refuted; the theorem on polygons excludes these tuples), because the units of radii and centres are not compared (C138_units_refuted), and because colours given for the components are dropped when they are drawn as markers (C138_markers_refuted). zip_broadcast of PyOperators is a parameter, known for sequences of as many elements as components or of one element. What matplotlib does with the arguments is not modelled."
  },
  {
   "property": "C139",
   "status": "partial",
   "theorems": [
    "C139_vectors",
    "C139_vector_pixels",
    "C139_vectors_back",
    "C139_vector_rules",
    "C139_vectors_refuted",
    "C139_angles",
    "C139_angle_pixels",
    "C139_angles_back",
    "C139_world",
    "C139_world_back",
    "C139_kapteyn",
    "C139_boresight",
    "C139_pointing",
    "C139_boresight_refuted"
   ],
   "note": "Partial because the composition of the conversion to pixels with the conversion to vectors is replaced by the identity although it moves vectors to the centres of the pixels (C139_vectors_refuted), and because the boresight operator does not validate the last dimension of its input (C139_boresight_refuted). healpy, astropy and kapteyn are parameters: that the transform of the library can be inverted is a hypothesis of the theorems on round trips."
  },
  {
   "property": "C14",
   "status": "partial",
   "theorems": [
    "C14_array_assignment",
    "C14_array_size",
    "C14_scalar_assignment_partial",
    "C14_selection",
    "C14_slice_refuted",
    "C14_0d_refuted",
    "C14_scatter_self_refuted"
   ],
   "note": "Array assignment proved for every history; scalar assignment proved for histories of masks and position lists, refuted for slices and 0-d attributes."
  },
  {
   "property": "C140",
   "status": "proved",
   "theorems": [
    "C140_positions",
    "C140_exact"
   ],
   "note": "The accuracy of the sine, cosine and constants of the library is a hypothesis (libm, met by the correctly rounded functions: C132_rounded). No overflow, no fused operations."
  },
  {
   "property": "C141",
   "status": "proved",
   "theorems": [
    "C141_plane",
    "C141_pixel",
    "C141_bounds"
   ],
   "note": "The accuracy of the sine, cosine and constants of the library and of the stored inverse of the matrix are hypotheses (met: C132_rounded, C132_inverse). Directions such that the squared cosine of the declination times the cosine of the angle to the reference is above 95000 units of roundoff. The initial values of the bounds are infinities (refuted for some compilers: C66_minmax_refuted). No overflow, no fused operations."
  },
  {
   "property": "C142",
   "status": "partial",
   "theorems": [
    "C142_interp",
    "C142_between",
    "C142_fold",
    "C142_unfold",
    "C142_node_refuted",
    "C142_small"
   ],
   "note": "Proved for the interpolation inside and outside of the table, and the sign. Refuted: in double precision the value at a node need not be the value of the node (it is within the bound of C142_between); unfolding is exact unless a value is less than the smallest number that can be halved (C142_small). No overflow."
  },
  {
   "property": "C143",
   "status": "partial",
   "theorems": [
    "C143_angle",
    "C143_self_refuted"
   ],
   "note": "Proved when the absolute value of the exact cosine is at most 1 - 112 units of roundoff, and whenever the result is finite. Refuted otherwise: in double precision, with sine and cosine rounded to nearest and DEG2RAD as it is computed, the angle between a position at the latitude of 8 degrees and itself is NaN, since the argument of the arccosine is 1 + 2^-52. No overflow, no fused operations."
  },
  {
   "property": "C144",
   "status": "partial",
   "theorems": [
    "C144_mean",
    "C144_none",
    "C144_range_refuted",
    "C144_arc_refuted"
   ],
   "note": "Proved for arcs of 89 degrees, with the result in [0, 360]. Refuted in double precision: the mean of the number just below 360 and three zeros is 360, out of the range; for samples in an arc of less than 90 degrees, where C67 holds in exact arithmetic, -90 + 2^-46 has the remainder 270 and the mean with 0 is 135 instead of -45. modulo as compiled by gfortran; no overflow; the constant NaN taken as a NaN (C62)."
  },
  {
   "property": "C145",
   "status": "proved",
   "theorems": [
    "C145_barycenter",
    "C145_equator_refuted"
   ],
   "note": "The bound in the square root of the unit of roundoff cannot be replaced by one in the unit: in double precision the barycentre of one position at the latitude of 2^-21 degrees is at the latitude 0. At least one position; no overflow; no fused operations; modulo as compiled by gfortran."
  },
  {
   "property": "C146",
   "status": "proved",
   "theorems": [
    "C146_profile",
    "C146_ring_refuted"
   ],
   "note": "The slack of the bins is necessary: in double precision with a width of 0.1 the pixel at the distance 3 is in bin 30, while the exact ring 29 contains it. Positive widths; (n + threads) u at most 1/1024; numbers of bins that are integers of 32 bits; no overflow; no fused operations."
  },
  {
   "property": "C147",
   "status": "partial",
   "theorems": [
    "C147_minmax_partial",
    "C147_constants",
    "C147_minmax_refuted",
    "C147_none"
   ],
   "note": "Proved were the constants pInf and mInf infinities. With the constants of the code, which are small numbers (C62), C147_constants says what is computed: the constants are among the samples, taken within 90 degrees of the mean; the minimum of the single angle 10 is at most 1 in double precision. Results in [0, 360]; modulo as compiled by gfortran; no overflow."
  },
  {
   "property": "C148",
   "status": "proved",
   "theorems": [
    "C148_distance",
    "C148_distance_2d",
    "C148_squares",
    "C148_underflow_refuted"
   ],
   "note": "The condition on the scales is necessary: in double precision with scales of 2^-540 every distance on two axes is 0. No overflow; no fused operations; one and two axes (compiled routines)."
  },
  {
   "property": "C149",
   "status": "proved",
   "theorems": [
    "C149_gaussian"
   ],
   "note": "Beyond the arguments of 1/(1024 u) both values are under the smallest numbers, which is not stated. No overflow; no fused operations."
  },
  {
   "property": "C15",
   "status": "proved",
   "theorems": [
    "C15_rows_columns",
    "C15_ndim1_refuted"
   ],
   "note": "For two splittable dimensions; the refuted companion is a grid with ndim=1."
  },
  {
   "property": "C150",
   "status": "proved",
   "theorems": [
    "C150_aperture",
    "C150_circle_refuted"
   ],
   "note": "Refuted: a pixel at a distance equal to the radius may be left out, the data being exact. Two axes; the diameter has the precision of the map; no overflow; no fused operations."
  },
  {
   "property": "C151",
   "status": "proved",
   "theorems": [
    "C151_beam",
    "C151_half",
    "C151_solid_angle"
   ],
   "note": "The angle of a backward beam is counted from the number pi of the machine. Beyond n^2 of 1/(1024 u) both values are under the smallest numbers, which is not stated. The solid angle is that of the tangent plane, see C64. No overflow; no fused operations."
  },
  {
   "property": "C152",
   "status": "proved",
   "theorems": [
    "C152_spectrum",
    "C152_even",
    "C152_decreasing"
   ],
   "note": "Two-sided, one spectrum; folding is in C142. The level is that of the code, see C79. No overflow; no fused operations."
  },
  {
   "property": "C153",
   "status": "proved",
   "theorems": [
    "C153_distance",
    "C153_centre"
   ],
   "note": "One and two axes are in C148. No overflow; no fused operations."
  },
  {
   "property": "C16",
   "status": "partial",
   "theorems": [
    "C16_product",
    "C16_product_new_output",
    "C16_any_order",
    "C16_rows_reproducible",
    "C16_scale",
    "C16_columns_rounding_refuted",
    "C16_block_shape_refuted",
    "C16_no_rows_refuted"
   ],
   "note": "Proved over every commutative ring for every class, path (compiled or fallback) and schedule, for matrices with columns and with the documented block shapes. Refuted: FSRBlockMatrix accepts other block shapes and the compiled kernel then adds nothing; without associativity the column formats depend on the schedule (row formats do not)."
  },
  {
   "property": "C17",
   "status": "proved",
   "theorems": [
    "C17_adjoint",
    "C17_transpose_twice"
   ],
   "note": "Over every commutative ring, every class, path and schedule, non-empty matrices."
  },
  {
   "property": "C18",
   "status": "proved",
   "theorems": [
    "C18_assign",
    "C18_accumulate",
    "C18_other",
    "C18_calls",
    "C18_untouched",
    "C18_default_shapes",
    "C18_reshapein"
   ],
   "note": "C18_calls: the output after any number of calls, failed ones included; an assignment refused for the size of its input has already set the output to zero."
  },
  {
   "property": "C19",
   "status": "partial",
   "theorems": [
    "C19_restrict",
    "C19_shapes",
    "C19_int8_refuted",
    "C19_narrow_blocks_refuted",
    "C19_nothing_kept_refuted",
    "C19_unsigned_refuted"
   ],
   "note": "Proved for every row format, path, schedule and number of broadcast columns when at least one column is kept and their number fits the index type. Refuted: 8-bit indices with 128 kept columns; blocks of one column; nothing kept. Unsigned index types: refuted, -1 cannot be stored."
  },
  {
   "property": "C20",
   "status": "partial",
   "theorems": [
    "C20_corestrict_partial",
    "C20_rotation_refuted"
   ],
   "note": "Proved for the scalar format; for rotations the corestriction always fails (refuted for every such operator and mask)."
  },
  {
   "property": "C21",
   "status": "partial",
   "theorems": [
    "C21_ptp_partial",
    "C21_broadcast_refuted"
   ],
   "note": "Proved for the scalar, 2-d and 3-d rotation formats without broadcast columns; with broadcast columns the diagonal is wrong (refuted)."
  },
  {
   "property": "C22",
   "status": "partial",
   "theorems": [
    "C22_given_data",
    "C22_block_shapes",
    "C22_allocated_partial",
    "C22_products",
    "C22_products_given_output",
    "C22_allocation_refuted",
    "C22_block_shape_refuted"
   ],
   "note": "Given data and products: exact characterisation. Allocation: proved for row formats and square blocks, refuted for column formats with rectangular blocks."
  },
  {
   "property": "C23",
   "status": "partial",
   "theorems": [
    "C23_scalar",
    "C23_blocks_partial",
    "C23_rotation2d_partial",
    "C23_compiled",
    "C23_rotation2d_refuted",
    "C23_narrow_blocks_refuted"
   ],
   "note": "Scalar: exact. Blocks and 3-d rotations: first component of the transpose applied to ones. 2-d rotations: sum of the norms, which is not the transpose applied to ones (refuted). Blocks of one column: refuted. C23_compiled is about the Fortran template that is never instantiated."
  },
  {
   "property": "C24",
   "status": "partial",
   "theorems": [
    "C24_one_thread",
    "C24_any_order_partial",
    "C24_unseen",
    "C24_lossless",
    "C24_race_refuted",
    "C24_blocks_refuted",
    "C24_broadcast_refuted"
   ],
   "note": "Exact with one thread, and with any schedule when no stored element in use is zero; refuted otherwise (shared pointer). Block matrices and broadcast shapes refuted."
  },
  {
   "property": "C25",
   "status": "partial",
   "theorems": [
    "C25_never_another",
    "C25_served_partial",
    "C25_after_failure_refuted",
    "C25_none_refuted"
   ],
   "note": "Another block's matrix is never served, whatever the failures; every access is served when no computation fails and identifiers are not None; refuted otherwise."
  },
  {
   "property": "C26",
   "status": "partial",
   "theorems": [
    "C26_direct_inplace",
    "C26_direct",
    "C26_transpose",
    "C26_adjoint",
    "C26_accepted",
    "C26_transpose_inplace_partial",
    "C26_transpose_inplace_refuted",
    "C26_negative_refuted",
    "C26_float32_refuted",
    "C26_cube_refuted",
    "C26_empty_refuted"
   ],
   "note": "Direct (both variants) and out-of-place transpose are the response matrix and its transpose, hence adjoint, for every order of processing. The in-place transpose is refuted and characterised exactly. Also refuted: negative time constants, 4-byte 2-d arrays, cubes, empty signals."
  },
  {
   "property": "C27",
   "status": "proved",
   "theorems": [
    "C27_multiply",
    "C27_divide",
    "C27_power",
    "C27_equality",
    "C27_group"
   ],
   "note": "Exponents are exact rationals. Equality is that of dictionaries."
  },
  {
   "property": "C28",
   "status": "proved",
   "theorems": [
    "C28_parse",
    "C28_characters",
    "C28_round_trip",
    "C28_round_trip_integers",
    "C28_equal_texts",
    "C28_small_refuted",
    "C28_close_refuted",
    "C28_zero_refuted"
   ],
   "note": "Proved for integer exponents, as the property states, and for exponents that str writes as plain decimals. Beyond it: exponents printed in scientific notation are not read back, exponents within 1e-7 of an integer are printed as that integer, and 'm^0' is not the dimensionless unit (refuted)."
  },
  {
   "property": "C29",
   "status": "partial",
   "theorems": [
    "C29_meaning",
    "C29_back_partial",
    "C29_compose_partial",
    "C29_terminates",
    "C29_powers_partial",
    "C29_products_partial",
    "C29_table_terminates",
    "C29_table_powers_partial",
    "C29_value",
    "C29_table_value",
    "C29_rad_refuted",
    "C29_empty_refuted"
   ],
   "note": "Any successful conversion keeps the value, for any table (C29_value), that of the module included; round trips and composition for any table and any non-empty units; SI ends on every table without circular definition, as that of the module; it is a product of powers where no power of a name has an entry of its own. Refuted: the entry ('rad', 2) makes compatible units incompatible; the empty unit relabels."
  },
  {
   "property": "C30",
   "status": "partial",
   "theorems": [
    "C30_distribute",
    "C30_serial",
    "C30_empty_refuted",
    "C30_grid",
    "C30_grid_accepts",
    "C30_grid_ignored_refuted"
   ],
   "note": "Exact cover proved for every number of processes, threads, observations and good detectors, and for the process grid. Refuted: several processes with no observation or no good detector raise UnboundLocalError; a contradictory nprocs_sampling is ignored."
  },
  {
   "property": "C31",
   "status": "proved",
   "theorems": [
    "C31_bands",
    "C31_round_trip",
    "C31_if_needed",
    "C31_ctype_refuted",
    "C31_read",
    "C31_read_refuted"
   ],
   "note": "Proved for every header with NAXIS, NAXIS1, the last axis and a numeric or absent reference pixel. Beyond the property: headers of different CTYPE are accepted, and the headers made by read_fits differ from the scattered ones for cubes and for other projections."
  },
  {
   "property": "C32",
   "status": "partial",
   "theorems": [
    "C32_file",
    "C32_aligned",
    "C32_padding_partial",
    "C32_padding_refuted",
    "C32_rows",
    "C32_rows_refuted",
    "C32_open_partial",
    "C32_open_refuted",
    "C32_read",
    "C32_first_unit_partial",
    "C32_first_unit_refuted"
   ],
   "note": "The ranks' ranges tile the data unit in any order of writing and the length is a multiple of 2880. The padding is minimal unless the data is aligned, when a useless block is written (refuted)."
  },
  {
   "property": "C33",
   "status": "proved",
   "theorems": [
    "C33_flux",
    "C33_cell",
    "C33_row",
    "C33_crossing_refuted"
   ],
   "note": "Exact real arithmetic. Polygons inside of the map and the signed sum for any polygon; for strictly convex polygons each value is the area of the part of the polygon in the pixel. A self-crossing polygon may cancel inside a pixel (refuted for those)."
  },
  {
   "property": "C34",
   "status": "partial",
   "theorems": [
    "C34_rows",
    "C34_operator",
    "C34_outside_refuted"
   ],
   "note": "Matrix, width and number of calls proved for every polygon. The flag outside (intent(out)) is only set, never cleared: it depends on the undefined initial content of the variable (refuted)."
  },
  {
   "property": "C35",
   "status": "proved",
   "theorems": [
    "C35_area",
    "C35_determined"
   ],
   "note": "Exact real arithmetic; every path of rotate."
  },
  {
   "property": "C36",
   "status": "partial",
   "theorems": [
    "C36_pack_partial",
    "C36_mask",
    "C36_get_mask",
    "C36_pack_own_mask",
    "C36_apply_mask",
    "C36_isvalid",
    "C36_one_pixel_refuted",
    "C36_valid_refuted"
   ],
   "note": "Proved over every commutative ring for the general form. The one-pixel form does not write samples without pixel (refuted); a matrix with elements after the index -1 may become invalid (refuted)."
  },
  {
   "property": "C37",
   "status": "partial",
   "theorems": [
    "C37_direct",
    "C37_get_ptp_empty",
    "C37_zeros",
    "C37_transpose",
    "C37_adjoint_partial",
    "C37_ptp",
    "C37_ptp_one_partial",
    "C37_stale_refuted",
    "C37_ptp_one_refuted",
    "C37_get_ptp_refuted"
   ],
   "note": "Proved over every commutative ring and every order of the atomic additions for two or more pixels per sample, and for one pixel per sample when every sample has its pixel; otherwise the output keeps its previous content (refuted). The Python method get_pTp always fails (refuted)."
  },
  {
   "property": "C38",
   "status": "partial",
   "theorems": [
    "C38_unfold",
    "C38_fold_partial",
    "C38_fold_refuted",
    "C38_fold_two_refuted",
    "C38_sample_partial",
    "C38_sample_refuted",
    "C38_fft_size"
   ],
   "note": "Unfolding conserves the total power and is the even spectrum of the same signal. Refuted: folding takes the wrong last value, so that fold after unfold is not the identity; it raises for two frequencies."
  },
  {
   "property": "C39",
   "status": "partial",
   "theorems": [
    "C39_history_partial",
    "C39_stale_refuted",
    "C39_selection_refuted",
    "C39_blocks_refuted",
    "C39_nbytes_partial",
    "C39_nbytes_refuted",
    "C39_noise"
   ],
   "note": "Proved for the histories in which nothing is selected in an acquisition that holds an operator. Refuted otherwise: the selection keeps the operator of the complete acquisition."
  },
  {
   "property": "C40",
   "status": "proved",
   "theorems": [
    "C40_elements",
    "C40_compose",
    "C40_inverse",
    "C40_adjoint",
    "C40_init",
    "C40_no_axis_refuted"
   ],
   "note": "Every shape, tuple of axes (repeated or not) and shifts. Without any offset the operator fails (refuted, outside of the claim)."
  },
  {
   "property": "C41",
   "status": "partial",
   "theorems": [
    "C41_median",
    "C41_median_nomask",
    "C41_median_nan_refuted",
    "C41_mad_partial",
    "C41_mad_refuted",
    "C41_uniq",
    "C41_uniq_real_partial",
    "C41_uniq_exact_partial",
    "C41_uniq_nan_refuted",
    "C41_equality",
    "C41_reorder",
    "C41_exact_tolerance",
    "C41_histogram",
    "C41_histogram_refuted",
    "C41_where"
   ],
   "note": "Numbers are integers or NaN (only order and differences matter). Exact for the median (NaN removed or absent), unique values, numbering, histograms of samples in range and positions. Refuted: the median when NaN are kept, the absolute deviation with NaN, unique values of an array of NaN, samples out of the bins (access outside of the array)."
  },
  {
   "property": "C42",
   "status": "partial",
   "theorems": [
    "C42_bins",
    "C42_conservation",
    "C42_profile",
    "C42_integrated",
    "C42_default_bins",
    "C42_nan_refuted",
    "C42_overflow_refuted",
    "C42_negative_refuted",
    "C42_boundary_refuted"
   ],
   "note": "Proved for every map with NaN, centre, positive bin width, number of bins and sharing between threads, as long as the number of the bin of each valid pixel is a 32-bit integer. Refuted: overflow of that number, negative width (write out of bounds), empty bins in double precision (a tiny number instead of NaN), documented abscissae of integrated profiles."
  },
  {
   "property": "C43",
   "status": "proved",
   "theorems": [
    "C43_orthogonal",
    "C43_observer",
    "C43_sidereal",
    "C43_midnight",
    "C43_galactic",
    "C43_convention"
   ],
   "note": "Exact real arithmetic."
  },
  {
   "property": "C44",
   "status": "partial",
   "theorems": [
    "C44_case_partial",
    "C44_lower_refuted",
    "C44_upper_refuted",
    "C44_consistent",
    "C44_split",
    "C44_split_join_partial",
    "C44_split_join_refuted",
    "C44_compress",
    "C44_join",
    "C44_join_raw",
    "C44_integer",
    "C44_integer_rounded_refuted",
    "C44_integer_log",
    "C44_integer_log_refuted",
    "C44_section"
   ],
   "note": "Case conversion is exact for strings without the letter Z/z, which the code leaves as it is (refuted). Splitting is total and yields the pieces, padded or truncated to the length of the elements; joining gives back the string when the pieces fit and do not end with a blank, and cannot in general (refuted). Also compression, joining, integers and sections; with logarithms correctly rounded in double precision, integers of at most fourteen digits are exact and one of fifteen is not (refuted)."
  },
  {
   "property": "C45",
   "status": "partial",
   "theorems": [
    "C45_partial",
    "C45_ends",
    "C45_grows",
    "C45_keeps",
    "C45_nan",
    "C45_limit_refuted"
   ],
   "note": "Always ends, after at most as many passes as samples, and only rejects more; the result is stable under a further pass unless the limit is 1, which makes exactly one pass. Other limits are ignored because the counter is never incremented (refuted). With a threshold of at least 1 something is kept; a NaN disables rejection."
  },
  {
   "property": "C46",
   "status": "partial",
   "theorems": [
    "C46_parse",
    "C46_strip",
    "C46_combinations",
    "C46_unequal",
    "C46_integer_guard_refuted",
    "C46_missing_kernels_refuted"
   ],
   "note": "Parsing of every clean header and its combinations: exact. Refuted: blocks guarded by a comparison with integers are never written."
  },
  {
   "property": "C47",
   "status": "partial",
   "theorems": [
    "C47_shapes_partial",
    "C47_no_prefix_refuted"
   ],
   "note": "Proved when a prefix of the shape has the size of the matrix dimension; refuted otherwise."
  },
  {
   "property": "C48",
   "status": "partial",
   "theorems": [
    "C48_matvec_kernels",
    "C48_conversion",
    "C48_other_kernels",
    "C48_complex_refuted"
   ],
   "note": "Every kernel name exists exactly once. Refuted: complex vectors lose their imaginary part."
  },
  {
   "property": "C49",
   "status": "partial",
   "theorems": [
    "C49_blocks",
    "C49_limit_partial",
    "C49_limit_refuted",
    "C49_empty_refuted"
   ],
   "note": "The blocks tile the samplings; the memory of a block exceeds the limit by less than one sampling (it may exceed it: refuted); some blocks may be empty (refuted)."
  },
  {
   "property": "C50",
   "status": "proved",
   "theorems": [
    "C50_interp",
    "C50_nodes",
    "C50_order_refuted",
    "C50_short"
   ],
   "note": "Exact rationals. The increasing order of the abscissae is a hypothesis, stated by the source; it is needed (C50_order_refuted)."
  },
  {
   "property": "C51",
   "status": "partial",
   "theorems": [
    "C51_sort",
    "C51_integers",
    "C51_reals",
    "C51_mask",
    "C51_plain_partial",
    "C51_plain_refuted"
   ],
   "note": "QSORTGI with any total preorder ends without overflow of its stack and sorts; the comparisons of qsorti are such preorders, NaN and masked elements come last. QSORTID compares reals without care for NaN: proved without NaN, refuted with NaN."
  },
  {
   "property": "C52",
   "status": "proved",
   "theorems": [
    "C52_compensated",
    "C52_norms",
    "C52_dimensions"
   ],
   "note": "Any rounding of the running addition; the other operations are exact. Several dimensions: each level is rounded once."
  },
  {
   "property": "C53",
   "status": "partial",
   "theorems": [
    "C53_shift_partial",
    "C53_refuted"
   ],
   "note": "Holds when the number of offsets divides the number of columns, also in place; otherwise the offsets are read past their end or the number of columns is divided by zero (refuted)."
  },
  {
   "property": "C54",
   "status": "proved",
   "theorems": [
    "C54_moments",
    "C54_cases"
   ],
   "note": "Exact real arithmetic with NaN, no infinities."
  },
  {
   "property": "C55",
   "status": "proved",
   "theorems": [
    "C55_roundings"
   ],
   "note": "Arguments are rational numbers."
  },
  {
   "property": "C56",
   "status": "partial",
   "theorems": [
    "C56_backprojection",
    "C56_mask_partial",
    "C56_mask_refuted",
    "C56_mask_one_refuted"
   ],
   "note": "The kernel is proved for every mask and order of the additions. The mask argument of the Python method is refused or ignored (refuted)."
  },
  {
   "property": "C57",
   "status": "partial",
   "theorems": [
    "C57_intersects_partial",
    "C57_axes",
    "C57_outside_refuted"
   ],
   "note": "Coordinates of the map: exact. Outside, column 0 matches the unused elements (refuted)."
  },
  {
   "property": "C58",
   "status": "partial",
   "theorems": [
    "C58_regions_partial",
    "C58_nearest",
    "C58_out_refuted"
   ],
   "note": "The areas of intersection are a parameter; with the areas of the polygons: C120. The flag of the samples outside of the map is not initialised by the wrapper (refuted)."
  },
  {
   "property": "C59",
   "status": "proved",
   "theorems": [
    "C59_point",
    "C59_converse"
   ],
   "note": "Exact real arithmetic."
  },
  {
   "property": "C60",
   "status": "proved",
   "theorems": [
    "C60_rotate",
    "C60_rectangle",
    "C60_square",
    "C60_regular",
    "C60_grid"
   ],
   "note": "Exact real arithmetic; a filling factor that is not negative."
  },
  {
   "property": "C61",
   "status": "proved",
   "theorems": [
    "C61_segments"
   ],
   "note": "Exact real arithmetic; positive maximum distance."
  },
  {
   "property": "C62",
   "status": "partial",
   "theorems": [
    "C62_constants_partial",
    "C62_module_math_refuted",
    "C62_module_math_old_refuted"
   ],
   "note": "Two of the nine constants are right; the others are refuted bit by bit."
  },
  {
   "property": "C63",
   "status": "partial",
   "theorems": [
    "C63_distance",
    "C63_distance2_partial",
    "C63_distance2_refuted",
    "C63_center_refuted",
    "C63_gaussian",
    "C63_fwhm",
    "C63_phasemask"
   ],
   "note": "Squared distances and apertures of three axes or more always fail (refuted). Exact real arithmetic, floating point dtypes."
  },
  {
   "property": "C64",
   "status": "partial",
   "theorems": [
    "C64_beam",
    "C64_sphere",
    "C64_solid_angle_refuted"
   ],
   "note": "Exact real arithmetic. Refuted: the attribute solid_angle is the integral over the tangent plane, never the solid angle of the beam, which is less; it exceeds that of the sphere for wide beams; the difference is bounded."
  },
  {
   "property": "C65",
   "status": "partial",
   "theorems": [
    "C65_shape",
    "C65_cards",
    "C65_system",
    "C65_shape_for",
    "C65_shape_scalar",
    "C65_has_wcs",
    "C65_roundtrip",
    "C65_matrix",
    "C65_fits",
    "C65_cd_refuted",
    "C65_no_axis_refuted",
    "C65_direction_refuted",
    "C65_crota2_refuted"
   ],
   "note": "Proved for every shape, scale and angle (exact real arithmetic; has_wcs for two axes). Refuted: cd= always fails, headers without axes, FITS rotation for scales of the same sign, CROTA2 in the Fortran code."
  },
  {
   "property": "C66",
   "status": "partial",
   "theorems": [
    "C66_projection",
    "C66_unique",
    "C66_scale",
    "C66_area",
    "C66_boresight",
    "C66_east_refuted",
    "C66_pixel_scale",
    "C66_antipode_refuted",
    "C66_pixel_scale_refuted",
    "C66_minmax_partial",
    "C66_minmax_refuted",
    "C66_width_partial",
    "C66_width_refuted"
   ],
   "note": "Projection, scale, area and rotation proved for every direction in front of the map (exact real arithmetic). Refuted: directions behind are projected too, the first offset is along the increasing right ascensions (documented: decreasing), the scale of a pixel, the extrema with the constants of the code (right with infinities), the width with two threads (right with one)."
  },
  {
   "property": "C67",
   "status": "partial",
   "theorems": [
    "C67_mean",
    "C67_mean_refuted",
    "C67_minmax_partial",
    "C67_minmax_refuted",
    "C67_barycenter",
    "C67_empty_refuted",
    "C67_angle",
    "C67_arrays",
    "C67_sizes_refuted"
   ],
   "note": "Separations and barycentres proved; mean for angles gathered in less than 90 degrees (refuted at 90). Extrema right with infinities, refuted with the constants of the code; so are empty lists; arrays of different sizes read out of bounds. Exact real arithmetic."
  },
  {
   "property": "C68",
   "status": "proved",
   "theorems": [
    "C68_encompass",
    "C68_minimal"
   ],
   "note": "Exact real arithmetic; the tangent projection of astropy is modelled; given scales not zero."
  },
  {
   "property": "C69",
   "status": "partial",
   "theorems": [
    "C69_same",
    "C69_defined",
    "C69_compare",
    "C69_unary",
    "C69_binary",
    "C69_fmax_refuted",
    "C69_float_power_refuted",
    "C69_copysign_refuted",
    "C69_other_refuted",
    "C69_prod_refuted",
    "C69_out_refuted",
    "C69_rounding_refuted",
    "C69_number_refuted",
    "C69_exp_refuted"
   ],
   "note": "Proved for the functions with a rule that follows their degree. Refuted: fmax, fmin, float_power, copysign, functions without rule (clip, remainder, positive, arctan2), products of elements, the unit of out, roundings, numbers without unit, exponentials of dimensional quantities."
  },
  {
   "property": "C70",
   "status": "partial",
   "theorems": [
    "C70_same",
    "C70_defined",
    "C70_product",
    "C70_einsum",
    "C70_variance",
    "C70_each",
    "C70_clip_refuted",
    "C70_interp_refuted",
    "C70_select_refuted",
    "C70_one_argument_refuted",
    "C70_several_refuted"
   ],
   "note": "Proved for the functions of the table listed in UfSpec.v by what they do. Refuted: the bounds of clip, the unit of interp, the default of select, cov and where with one argument, several results."
  },
  {
   "property": "C71",
   "status": "partial",
   "theorems": [
    "C71_item_partial",
    "C71_ellipsis_refuted",
    "C71_newaxis_refuted",
    "C71_scalar_refuted"
   ],
   "note": "Keys of integers and slices with an ellipsis last or for no axis; refuted for the other ellipses, for None and for scalars declared leftward. Index arrays: C110."
  },
  {
   "property": "C72",
   "status": "partial",
   "theorems": [
    "C72_item",
    "C72_basic",
    "C72_number",
    "C72_rearranged",
    "C72_numpy_false",
    "C72_whole",
    "C72_scalar_item_refuted",
    "C72_reshape_refuted",
    "C72_transpose_refuted",
    "C72_masked_array_refuted"
   ],
   "note": "Proved for results of one dimension at least. Refuted: items without dimension such as t[0, ...] write their mask in the whole mask of t; reshape(()), transposition; masked arrays without mask."
  },
  {
   "property": "C73",
   "status": "partial",
   "theorems": [
    "C73_values",
    "C73_integers",
    "C73_scalar",
    "C73_none",
    "C73_constructed",
    "C73_given_mask",
    "C73_given_values",
    "C73_copy_refuted",
    "C73_constructor_refuted"
   ],
   "note": "Setter and constructor proved; refuted: copy() and results of operations share the mask, and the constructor checks no shape."
  },
  {
   "property": "C74",
   "status": "partial",
   "theorems": [
    "C74_reduction",
    "C74_total",
    "C74_ufunc",
    "C74_all_masked_refuted",
    "C74_method_refuted",
    "C74_second_mask_refuted",
    "C74_broadcast_refuted",
    "C74_sort_refuted"
   ],
   "note": "Proved for numpy's reductions with something unmasked and for universal functions whose second operand has no mask. Refuted: everything masked, the method sum, the mask of the second operand, broadcast results, sort."
  },
  {
   "property": "C75",
   "status": "partial",
   "theorems": [
    "C75_array",
    "C75_refused",
    "C75_refused_map",
    "C75_units",
    "C75_map",
    "C75_tod",
    "C75_unit_refuted",
    "C75_integers_refuted",
    "C75_derived_refuted",
    "C75_path_refuted",
    "C75_save_refuted",
    "C75_mask_path_refuted"
   ],
   "note": "Proved for real numbers in one dimension at least, units that print exactly and file names given as str. Refuted: a unit left in the header, integers (NumPy 2), file names given as Path, derived units given by the caller; Map.save changes the header of the map."
  },
  {
   "property": "C76",
   "status": "partial",
   "theorems": [
    "C76_item",
    "C76_rearranged",
    "C76_constructed",
    "C76_shape_refuted",
    "C76_transpose_refuted"
   ],
   "note": "Items, ravel, reshape and constructor proved for coverages of the shape of the data; refuted: the shape is not checked, transposed and reduced maps keep the former coverage."
  },
  {
   "property": "C77",
   "status": "partial",
   "theorems": [
    "C77_rot2d",
    "C77_rot3d",
    "C77_weighted",
    "C77_seen",
    "C77_pole_refuted"
   ],
   "note": "Proved with exact real numbers for directions that are not the pole of either frame; at a pole the element is not a number (refuted)."
  },
  {
   "property": "C78",
   "status": "partial",
   "theorems": [
    "C78_constructor",
    "C78_errors",
    "C78_reserved",
    "C78_shape",
    "C78_clash",
    "C78_selected_times",
    "C78_center",
    "C78_center_pure",
    "C78_third_refuted",
    "C78_period_refuted",
    "C78_broadcast_refuted",
    "C78_center_stored_refuted",
    "C78_center_nan_refuted",
    "C78_velocity_refuted",
    "C78_speed_refuted"
   ],
   "note": "Proved for arrays of angles of one length, finite coordinates and selections without only repeated positions. Refuted: third angle by keyword beside two positional ones, period from the times, broadcast angles, coordinates assigned by the user, masked coordinates that are not finite, velocity."
  },
  {
   "property": "C79",
   "status": "partial",
   "theorems": [
    "C79_one_over_f",
    "C79_white",
    "C79_power_law",
    "C79_documented_refuted",
    "C79_short_refuted",
    "C79_positive",
    "C79_one_sided_partial",
    "C79_nyquist_refuted",
    "C79_few_refuted"
   ],
   "note": "Proved over exact reals for two-sided spectra, for the one-sided ones of three samples or more below their last frequency, and for the interpolation of power laws of four values or more. Refuted: the documented level, which divides by the increment of frequency instead of the sampling frequency; interpolation of spectra of two or three values; the last value of one-sided spectra, that of another frequency; one-sided spectra of one or two samples."
  },
  {
   "property": "C80",
   "status": "partial",
   "theorems": [
    "C80_covariance",
    "C80_one_sided_partial",
    "C80_spectrum",
    "C80_inverse",
    "C80_instrument_partial",
    "C80_instrument_psd_partial",
    "C80_white",
    "C80_arguments",
    "C80_default_refuted",
    "C80_one_deviation",
    "C80_detectors_refuted"
   ],
   "note": "Proved over exact reals, the transforms taken as the discrete Fourier sums. One-sided spectra only for even numbers of samples (C38_sample_refuted for odd ones); noise against inverse noise for powers of two and all the correlations, the band being truncated otherwise. Refuted: default number of correlations; one deviation per detector with correlated noise."
  },
  {
   "property": "C81",
   "status": "partial",
   "theorems": [
    "C81_periodogram_partial",
    "C81_average_partial",
    "C81_odd_refuted",
    "C81_odd_power_refuted"
   ],
   "note": "Proved for even numbers of samples. Refuted for odd ones: last frequency too large by the sampling frequency, last power not doubled."
  },
  {
   "property": "C82",
   "status": "partial",
   "theorems": [
    "C82_dispatch",
    "C82_whole",
    "C82_lengths",
    "C82_stack_refuted",
    "C82_sizes_refuted",
    "C82_none_refuted"
   ],
   "note": "Proved for chunks with shapes and for stacks without shapes. Refuted: stacked blocks keep the stacked axis in their shapes; sizes that do not add up to the shape of the whole, shapes given by position and empty partitions; a partition variable given as None. Not modelled: pyoperators' BlockDiagonalOperator itself and the class of the blocks."
  },
  {
   "property": "C83",
   "status": "partial",
   "theorems": [
    "C83_plain",
    "C83_bounds",
    "C83_not_integer",
    "C83_comment",
    "C83_character",
    "C83_unquoted",
    "C83_integer",
    "C83_logical",
    "C83_absent",
    "C83_z_refuted",
    "C83_terminator_refuted",
    "C83_short_refuted",
    "C83_values_refuted"
   ],
   "note": "Proved for keywords without the letter Z. Refuted: keywords with a Z; header with one more character, or empty; strings longer than the variable; empty values, numbers with blanks or of more than 20 characters. The conversion of a string to a real number is a parameter."
  },
  {
   "property": "C84",
   "status": "partial",
   "theorems": [
    "C84_matrix",
    "C84_rotation",
    "C84_incomplete",
    "C84_others",
    "C84_unit_refuted",
    "C84_pc_refuted",
    "C84_order_refuted",
    "C84_minmax_refuted"
   ],
   "note": "Refuted: units of the axes and matrix PC ignored, axes in the other order refused, headers cut after 36 cards by object2xy_minmax. The sign of CROTA2 is C65_crota2_refuted."
  },
  {
   "property": "C85",
   "status": "partial",
   "theorems": [
    "C85_filter",
    "C85_filters_partial",
    "C85_tod",
    "C85_matrix_partial",
    "C85_blocks",
    "C85_invntt_partial",
    "C85_mask_partial",
    "C85_matrix_refuted",
    "C85_invntt_refuted",
    "C85_intervals_refuted",
    "C85_truncated_refuted",
    "C85_name_refuted",
    "C85_inf_refuted"
   ],
   "note": "Refuted: the pixels and weights of the pointing matrix are exchanged; with several blocks each operator of the inverse noise has the filters of all blocks; intervals are not compared; truncated filters are accepted; points of the name match any character; an infinite missing value masks both infinities. Names with other special characters of regular expressions are not modelled."
  },
  {
   "property": "C86",
   "status": "partial",
   "theorems": [
    "C86_grid",
    "C86_squares",
    "C86_incompatible",
    "C86_orientation",
    "C86_list_refuted",
    "C86_vertex_refuted",
    "C86_orientation_refuted"
   ],
   "note": "Refuted: shapes given as lists, vertices in another unit than the spacing, corners clockwise with one reflection. Real numbers, no rounding."
  },
  {
   "property": "C87",
   "status": "partial",
   "theorems": [
    "C87_convention",
    "C87_coordinates",
    "C87_pixels",
    "C87_width",
    "C87_shape_partial",
    "C87_directions_refuted",
    "C87_empty_refuted"
   ],
   "note": "Refuted: directions to pixels and back is replaced by the identity, empty maps are accepted. healpy's functions are parameters. Real numbers, no rounding."
  },
  {
   "property": "C88",
   "status": "partial",
   "theorems": [
    "C88_constant",
    "C88_quadratic",
    "C88_symmetric",
    "C88_laplacian_refuted",
    "C88_missing_refuted"
   ],
   "note": "Refuted: the operator is 3/2 of the laplacian (weights of sides and corners exchanged), and does not vanish for constant maps at pixels with seven neighbours. Neighbours of healpy are a parameter."
  },
  {
   "property": "C89",
   "status": "partial",
   "theorems": [
    "C89_scene",
    "C89_kinds",
    "C89_planck",
    "C89_linear",
    "C89_polarisation_refuted"
   ],
   "note": "Refuted: with the background, Planck's law is also applied to Q and U. Real numbers, no rounding."
  },
  {
   "property": "C90",
   "status": "partial",
   "theorems": [
    "C90_black_body",
    "C90_arguments",
    "C90_chain",
    "C90_power_law",
    "C90_power_law_scalars",
    "C90_reference_refuted",
    "C90_beta_refuted",
    "C90_documentation_refuted"
   ],
   "note": "Refuted: a reference frequency that is an array is not refused, an array of beta is; the documented example of the power law has other values. Real numbers, no rounding."
  },
  {
   "property": "C91",
   "status": "partial",
   "theorems": [
    "C91_units_partial",
    "C91_round_trip_partial",
    "C91_number_refuted",
    "C91_trip_refuted",
    "C91_back_projection_refuted",
    "C91_default_derived_refuted"
   ],
   "note": "Partial: units of arguments that are not dimensionless, attributes given to the constructor that are none of the three. Refuted: dimensionless arguments are given no unit, the round trip through no unit loses it, get_pTx_pT1 does not divide by the unit, default derived units remove those of the argument."
  },
  {
   "property": "C92",
   "status": "partial",
   "theorems": [
    "C92_scalar",
    "C92_shapes",
    "C92_output_shapes",
    "C92_blocks_partial",
    "C92_errors",
    "C92_uninitialised_refuted"
   ],
   "note": "Partial for blocks and rotations: one value of each block, no additional dimension, as the code does. Refuted: iadd without out adds to uninitialised memory."
  },
  {
   "property": "C93",
   "status": "partial",
   "theorems": [
    "C93_parseval",
    "C93_middle",
    "C93_dimensions",
    "C93_profile_partial",
    "C93_profile_refuted",
    "C93_constant_refuted",
    "C93_mask"
   ],
   "note": "Partial: profile for square images of 3 to 2^30 rows. Refuted: the rings of the profile are centred one pixel after the middle. Real numbers, the transform is its definition."
  },
  {
   "property": "C94",
   "status": "partial",
   "theorems": [
    "C94_minimap",
    "C94_bounds",
    "C94_region",
    "C94_homothety",
    "C94_not_replaced",
    "C94_diagonal_refuted"
   ],
   "note": "Refuted: a diagonal operator with the shape of the samples is not absorbed, the composition raises."
  },
  {
   "property": "C95",
   "status": "partial",
   "theorems": [
    "C95_area_partial",
    "C95_no_area",
    "C95_pc_refuted",
    "C95_cd_refuted",
    "C95_reference",
    "C95_one",
    "C95_cube_refuted",
    "C95_axes_refuted"
   ],
   "note": "Partial: headers with the four CD keywords, or without any of them and with both CDELT and a matrix PC of determinant one or minus one. Refuted: the scale of PC is forgotten, elements of CD that are left out make the area that of CDELT or none; cubes without a third world coordinate have area one; arrays of no or one dimension raise."
  },
  {
   "property": "C96",
   "status": "partial",
   "theorems": [
    "C96_hull",
    "C96_dimension",
    "C96_circle",
    "C96_uniform_refuted",
    "C96_gaussian_refuted"
   ],
   "note": "The points of the hull are those of the triangulation of scipy, with the hypothesis that they are on the border and the farthest ones. Refuted: the uniform half-space beam is one in the whole space, so that its solid angle is half of its integral; that of the gaussian beam is the integral over the plane, larger than over the sphere."
  },
  {
   "property": "C97",
   "status": "partial",
   "theorems": [
    "C97_observation_partial",
    "C97_noiseless",
    "C97_operation_refuted",
    "C97_blocks_refuted",
    "C97_no_noise_model_refuted",
    "C97_unpack_refuted"
   ],
   "note": "Partial: operations assign and iadd, and consecutive blocks. Refuted: the noise is added whatever the operation; blocks that do not follow each other give the noise of other samplings; the noise of an instrument without a noise model cannot be obtained; unpack ignores missing_value, out and copy."
  },
  {
   "property": "C98",
   "status": "partial",
   "theorems": [
    "C98_nearest_partial",
    "C98_flag",
    "C98_antipode_refuted",
    "C98_outside_refuted"
   ],
   "note": "Partial: directions in front of the tangent plane. Refuted: a detector that points to the other half of the sky sees the map, with a negative weight; elements outside of the map keep a weight."
  },
  {
   "property": "C99",
   "status": "partial",
   "theorems": [
    "C99_planes_partial",
    "C99_planes_refuted",
    "C99_median_copy_partial",
    "C99_median_copy_refuted",
    "C99_positions_partial",
    "C99_optional_refuted",
    "C99_distance_3d",
    "C99_airy_partial",
    "C99_airy_missing"
   ],
   "note": "Partial: the number of offsets divides that of planes, NaN are removed or absent, the number of positions is asked for, the width of the disk is not zero. Refuted: offsets read past their end or division by zero, index out of bounds with NaN, optional argument assigned when it is not there."
  }
 ]
}