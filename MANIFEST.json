{
 "claims": [
  {
   "property": "C01",
   "status": "proved",
   "theorems": [
    "C01_dtype_round_trip",
    "C01_code_round_trip",
    "C01_codes_injective",
    "C01_supported_dtypes",
    "C01_unsupported_partial_write",
    "C01_standard_codes_except_complex",
    "C01_complex_code_refuted"
   ],
   "note": "Round trip, injectivity, rejection and the partial-write crash point are proved for all dtypes. The standard's codes are proved for all non-complex types; C01_complex_code_refuted shows that complex data is written with a code of another precision."
  },
  {
   "property": "C02",
   "status": "proved",
   "theorems": [
    "C02_bil_round_trip",
    "C02_bil_layout",
    "C02_file_size",
    "C02_image_file_round_trip"
   ],
   "note": "For all shapes and contents; the raw file size is exact."
  },
  {
   "property": "C03",
   "status": "partial",
   "theorems": [
    "C03_other_interleave_write_zeros",
    "C03_other_interleave_read_zeros",
    "C03_other_interleave_refuted"
   ],
   "note": "The property is false of the code: C03_other_interleave_refuted. The exact behaviour (silent zeros on write and on read) is proved for every other interleave."
  },
  {
   "property": "C04",
   "status": "proved",
   "theorems": [
    "C04_header_round_trip",
    "C04_last_entry_wins",
    "C04_bracket_text_refuted"
   ],
   "note": "Round trip proved for all dictionaries of clean keys and values; C04_bracket_text_refuted shows that a bracketed text loses its closing brace."
  },
  {
   "property": "C05",
   "status": "partial",
   "theorems": [
    "C05_read_header_terminates",
    "C05_diverges_only",
    "C05_only_value_errors",
    "C05_unclosed_brace_diverges_refuted"
   ],
   "note": "False of the code: C05_unclosed_brace_diverges_refuted. C05_read_header_terminates proves termination for every text whose braces are closed, and C05_diverges_only that entries with an unclosed brace are the only cause of divergence, for every text."
  },
  {
   "property": "C06",
   "status": "proved",
   "theorems": [
    "C06_read_envi_image_header",
    "C06_envi_image_header",
    "C06_readers_agree_refuted",
    "C06_no_header_raises",
    "C06_named_header_only"
   ],
   "note": "Discovery rule proved for both readers; C06_readers_agree_refuted shows that the two readers prefer different headers when both exist."
  },
  {
   "property": "C07",
   "status": "proved",
   "theorems": [
    "C07_chips_cover_image",
    "C07_overlap_at_least_requested",
    "C07_overlap_too_large"
   ],
   "note": "Coverage, order, bounds and overlap for all sizes with 0 <= overlap < chip <= image."
  },
  {
   "property": "C08",
   "status": "proved",
   "theorems": [
    "C08_chips_exact",
    "C08_shapes",
    "C08_inside_unchanged",
    "C08_unclamped_inside",
    "C08_too_tall_rejected",
    "C08_refused",
    "C08_one_row_image_replicated_refuted"
   ],
   "note": "Exactness proved for all images, corners and band selections with chip <= image; a larger chip is rejected unless the image has one row, where C08_one_row_image_replicated_refuted shows silent replication."
  },
  {
   "property": "C09",
   "status": "proved",
   "theorems": [
    "C09_corner_within_one",
    "C09_even_chip_centered",
    "C09_odd_chip_position",
    "C09_odd_chip_not_centered_refuted"
   ],
   "note": "Position of every chip proved for both parities; C09_odd_chip_not_centered_refuted shows that odd chips away from the origin are not centred."
  },
  {
   "property": "C10",
   "status": "proved",
   "theorems": [
    "C10_chip_files_distinct",
    "C10_chip_file_paths",
    "C10_pixels_kept",
    "C10_given_names_used",
    "C10_given_names_can_collide",
    "C10_one_band_chips_not_writable_refuted"
   ],
   "note": "Distinct names proved for all chip counts; names given by the caller can collide, and one-band chips cannot be written at all (C10_one_band_chips_not_writable_refuted)."
  },
  {
   "property": "C11",
   "status": "proved",
   "theorems": [
    "C11_detection_image_is_maximum",
    "C11_order_independent",
    "C11_adding_a_chip",
    "C11_negative_score_lowers_background",
    "C11_no_chips_raises",
    "C11_refused"
   ],
   "note": "For every total order of scores, argsort with any tie-breaking, all chip sets with non-negative corners. C11_negative_score_lowers_background shows why monotonicity needs non-negative scores."
  },
  {
   "property": "C12",
   "status": "proved",
   "theorems": [
    "C12_flatten_unflatten",
    "C12_unflatten_flatten",
    "C12_flat_order",
    "C12_image_dims",
    "C12_wrong_size_rejected",
    "C12_pixel_grid"
   ],
   "note": "Scale factor restricted to positive integers for the pixel grid (exact arithmetic)."
  },
  {
   "property": "C13",
   "status": "proved",
   "theorems": [
    "C13_normalise",
    "C13_constant_image_nan",
    "C13_empty_refused"
   ],
   "note": "Exact real arithmetic; the constant image yields NaN, as stated."
  },
  {
   "property": "C14",
   "status": "partial",
   "theorems": [
    "C14_in_range_interpolates",
    "C14_node_colour",
    "C14_nodes",
    "C14_clipped",
    "C14_discrete_steps",
    "C14_discrete_last_edge_refuted",
    "C14_long_palette_black_refuted",
    "C14_any_palette_exact",
    "C14_long_palette_refuted",
    "C14_uint8_truncates",
    "C14_uint8_colours",
    "C14_constant_image_nan",
    "C14_same_bin_count_identity",
    "C14_default_clips_cover",
    "C14_image",
    "C14_uint8_channels",
    "C14_default_clips",
    "C14_n_bins",
    "C14_degenerate",
    "C14_uint8_any"
   ],
   "note": "False of the code for palettes of more than 129 colours (C14_long_palette_black_refuted) and, in discrete mode, on one bin edge; proved for 2 to 129 colours, and the exact colour for every number of colours (C14_any_palette_exact); the cast to uint8 is modelled (C14_uint8_colours)."
  },
  {
   "property": "C15",
   "status": "proved",
   "theorems": [
    "C15_mask_exact",
    "C15_any_colour",
    "C15_other_shapes",
    "C15_shared_label_last_wins"
   ],
   "note": "RGB and RGBA images; colorutils.hex_to_rgb is a parameter."
  },
  {
   "property": "C16",
   "status": "proved",
   "theorems": [
    "C16_mean_is_average",
    "C16_mean_defined",
    "C16_demeaned_mean_zero",
    "C16_demean_idempotent",
    "C16_demean_is_a_shift",
    "C16_masked_pixels_irrelevant"
   ],
   "note": "Exact real arithmetic; image data as functions on (sample, band)."
  },
  {
   "property": "C17",
   "status": "proved",
   "theorems": [
    "C17_covariance_is_sample_covariance",
    "C17_covariance_defined",
    "C17_symmetric_and_positive_semidefinite",
    "C17_translation_invariant",
    "C17_linear_transform"
   ],
   "note": "Exact real arithmetic."
  },
  {
   "property": "C18",
   "status": "proved",
   "theorems": [
    "C18_score",
    "C18_non_negative",
    "C18_default_non_negative",
    "C18_zero_at_mean",
    "C18_zero_only_at_mean",
    "C18_translation_invariant",
    "C18_default_translation_invariant",
    "C18_default_affine_invariant",
    "C18_default_sum",
    "C18_one_band_default_raises",
    "C18_default_degenerate"
   ],
   "note": "numpy.linalg.inv is a parameter whose results are inverses. Also proved: affine invariance and the sum of the scores. One-band images raise in default mode (C18_one_band_default_raises)."
  },
  {
   "property": "C19",
   "status": "proved",
   "theorems": [
    "C19_range",
    "C19_defined",
    "C19_default_range",
    "C19_one_iff_multiple",
    "C19_scale_invariant",
    "C19_ace_is_ace_demeaned",
    "C19_default_is_ace_demeaned",
    "C19_default_degenerate"
   ],
   "note": "numpy.linalg.inv is a parameter; exact real arithmetic."
  },
  {
   "property": "C20",
   "status": "proved",
   "theorems": [
    "C20_range",
    "C20_cosine",
    "C20_defined",
    "C20_one_iff_same_direction",
    "C20_scale_invariant",
    "C20_negation"
   ],
   "note": "The score is the cosine; exact real arithmetic."
  },
  {
   "property": "C21",
   "status": "proved",
   "theorems": [
    "C21_flatten_unflatten",
    "C21_unflatten_flatten",
    "C21_flat_order",
    "C21_sam",
    "C21_ace_demeaned",
    "C21_rx",
    "C21_ace",
    "C21_mean",
    "C21_masked_mean",
    "C21_covariance",
    "C21_rx_default",
    "C21_masked_covariance",
    "C21_ace_default",
    "C21_demean",
    "C21_cov_eq_matrix",
    "C21_cov_eq_matrix_default_mask_raises",
    "C21_cov_eq",
    "C21_cov_eq_pixels",
    "C21_unflatten_refused"
   ],
   "note": "All detectors; C21_cov_eq_matrix_default_mask_raises is a finding (None masks are flattened unconditionally). compute_image_cube_pca (sklearn) is not modelled."
  },
  {
   "property": "C22",
   "status": "proved",
   "theorems": [
    "C22_equalised_covariance",
    "C22_stays_centred",
    "C22_one_band_raises",
    "C22_refused"
   ],
   "note": "The fractional matrix powers are parameters assumed to be a symmetric square root and inverse square root of the two covariances, as the property says."
  },
  {
   "property": "C23",
   "status": "proved",
   "theorems": [
    "C23_last_write_wins",
    "C23_new",
    "C23_getters",
    "C23_arrays_untouched",
    "C23_read_is_a_copy",
    "C23_later_reads_agree",
    "C23_no_data",
    "C23_wavelengths_are_shared"
   ],
   "note": "Float arrays, with_units=False readers; heap model with object identity. Wavelength arrays are handed out by reference (C23_wavelengths_are_shared)."
  },
  {
   "property": "C24",
   "status": "proved",
   "theorems": [
    "C24_constant",
    "C24_within_range",
    "C24_defined",
    "C24_linear",
    "C24_bands",
    "C24_nodata_poisons_every_band",
    "C24_units",
    "C24_exact",
    "C24_refused"
   ],
   "note": "np.interp and np.trapz modelled concretely over exact reals. Findings: the wavelength units are lost; one NaN poisons every band."
  },
  {
   "property": "C25",
   "status": "proved",
   "theorems": [
    "C25_rotation",
    "C25_unknown_order"
   ],
   "note": "All six orders; exact real sine and cosine."
  },
  {
   "property": "C26",
   "status": "proved",
   "theorems": [
    "C26_recover",
    "C26_rebuild",
    "C26_gimbal_lock"
   ],
   "note": "Exact real arithmetic; with rounding, gimbal lock is a neighbourhood of |m31|=1."
  },
  {
   "property": "C27",
   "status": "partial",
   "theorems": [
    "C27_exact",
    "C27_refuted"
   ],
   "note": "False of the code: C27_refuted. C27_exact gives the exact condition (rough and ideal commute) for every pair of rotations and setter history."
  },
  {
   "property": "C28",
   "status": "partial",
   "theorems": [
    "C28_grid",
    "C28_small_grid_error",
    "C28_offset",
    "C28_refuted"
   ],
   "note": "False of the code: C28_refuted. C28_grid proves the grid points exactly, C28_offset the exact misplacement of every pixel centre; it vanishes only for an empty extent."
  },
  {
   "property": "C29",
   "status": "proved",
   "theorems": [
    "C29_image_ray",
    "C29_defined",
    "C29_pixel_ray",
    "C29_same_ray",
    "C29_principal_point",
    "C29_translation",
    "C29_ifov"
   ],
   "note": "One point at a time; C35 covers arrays. Exact real arithmetic."
  },
  {
   "property": "C30",
   "status": "proved",
   "theorems": [
    "C30_composition",
    "C30_by_angles",
    "C30_unset"
   ],
   "note": "For every history of setter calls."
  },
  {
   "property": "C31",
   "status": "proved",
   "theorems": [
    "C31_projection",
    "C31_pinhole",
    "C31_uninitialised",
    "C31_same_ray",
    "C31_focal_length",
    "C31_unset"
   ],
   "note": "For every history of initialisations, one point at a time. Exact real arithmetic."
  },
  {
   "property": "C32",
   "status": "partial",
   "theorems": [
    "C32_r_matrix",
    "C32_projection",
    "C32_init_errors",
    "C32_reverse_flags",
    "C32_zero_distortion",
    "C32_third_coefficient_iff",
    "C32_third_coefficient_refuted"
   ],
   "note": "Proved except the third coefficient, which is false of the code: C32_third_coefficient_refuted; C32_third_coefficient_iff is the exact condition."
  },
  {
   "property": "C33",
   "status": "partial",
   "theorems": [
    "C33_exact",
    "C33_refuted",
    "C33_pixel",
    "C33_common_factor",
    "C33_short_list"
   ],
   "note": "False of the code: C33_refuted. C33_exact gives the exact deviation for every coefficient vector and point."
  },
  {
   "property": "C34",
   "status": "proved",
   "theorems": [
    "C34_round_trip",
    "C34_forward",
    "C34_singular"
   ],
   "note": "For every gdal.InvGeoTransform meeting its contract (an invertibility hypothesis shown satisfiable)."
  },
  {
   "property": "C35",
   "status": "proved",
   "theorems": [
    "C35_pointwise",
    "C35_altitudes",
    "C35_size_mismatch",
    "C35_numbers"
   ],
   "note": "For every sensor and transform acting on points one by one (contract hypotheses, shown satisfiable). Mixed ranks are not modelled."
  },
  {
   "property": "C36",
   "status": "partial",
   "theorems": [
    "C36_own_steps",
    "C36_pinhole",
    "C36_stops",
    "C36_affine",
    "C36_converges",
    "C36_converges_eventually",
    "C36_default_steps",
    "C36_zero_slope",
    "C36_refuted",
    "C36_no_step",
    "C36_nan_steps",
    "C36_no_center",
    "C36_empty",
    "C36_projection"
   ],
   "note": "C36_stops and C36_affine prove the first two parts in exact arithmetic; C36_converges and C36_converges_eventually prove convergence, with rate and position error, for every sensor close to an affine one, C36_default_steps the step sizes chosen, C36_own_steps convergence with them, C36_pinhole for ideal pinhole cameras of any orientation with explicit bounds; the last is false of the code: C36_refuted, C36_zero_slope."
  },
  {
   "property": "C37",
   "status": "partial",
   "theorems": [
    "C37_first_crossing",
    "C37_gaps",
    "C37_refused",
    "C37_vertical",
    "C37_flat_refuted",
    "C37_negative_distance",
    "C37_shapes",
    "C37_2d",
    "C37_projection",
    "C37_wrong_bounds"
   ],
   "note": "C37_first_crossing proves it for every DEM and sensor; false of the code for flat DEMs and vertical rays: C37_flat_refuted, C37_vertical."
  },
  {
   "property": "C38",
   "status": "partial",
   "theorems": [
    "C38_pixel_exact",
    "C38_range",
    "C38_inside",
    "C38_node",
    "C38_node_refuted",
    "C38_few_nodes",
    "C38_altitude_image",
    "C38_altitude_refuted",
    "C38_altitude_zero"
   ],
   "note": "C38_pixel_exact, C38_range, C38_inside and C38_node (with the exact error bound of the inverse distance weighting at a node); exactness at a node and a numeric altitude are false of the code: C38_node_refuted, C38_altitude_refuted, C38_altitude_zero. scipy's tree is a contract hypothesis (six_nearest), shown satisfiable by a sorting implementation."
  },
  {
   "property": "C39",
   "status": "proved",
   "theorems": [
    "C39_last_stored",
    "C39_every_band",
    "C39_other_bands",
    "C39_add",
    "C39_bad_update",
    "C39_projection"
   ],
   "note": "For all histories of add, update, set list and set projection; negative band numbers and failed updates included."
  },
  {
   "property": "C40",
   "status": "proved",
   "theorems": [
    "C40_everywhere",
    "C40_bounds"
   ],
   "note": "All shapes."
  },
  {
   "property": "C41",
   "status": "proved",
   "theorems": [
    "C41_containing",
    "C41_nearest_pixel",
    "C41_bounds",
    "C41_bounds_tight",
    "C41_nodata",
    "C41_no_nodata",
    "C41_integer_nodata",
    "C41_from_file",
    "C41_single_row"
   ],
   "note": "Exact arithmetic; the world to pixel map is arbitrary (C34, C35 cover it). The documented exceptions are C41_integer_nodata and C41_single_row."
  },
  {
   "property": "C42",
   "status": "partial",
   "theorems": [
    "C42_between",
    "C42_fails_iff",
    "C42_at_pixel_refuted",
    "C42_weights",
    "C42_reversed",
    "C42_closer_heavier_refuted",
    "C42_unknown_method"
   ],
   "note": "C42_between proves the bounds; C42_fails_iff, C42_weights and C42_reversed give the exact behaviour. The last two parts are false of the code: C42_at_pixel_refuted, C42_closer_heavier_refuted."
  },
  {
   "property": "C43",
   "status": "proved",
   "theorems": [
    "C43_channels",
    "C43_curve",
    "C43_records",
    "C43_single_record_refuted",
    "C43_empty_table_raises",
    "C43_eo_file",
    "C43_eo_columns"
   ],
   "note": "All channels of both classes, whole records, and the path from an EO file. Exact real arithmetic. One record answers NaN at its own time (C43_single_record_refuted)."
  },
  {
   "property": "C44",
   "status": "partial",
   "theorems": [
    "C44_shorter_arc_iff",
    "C44_shorter_arc_refuted"
   ],
   "note": "False of the code: C44_shorter_arc_refuted. C44_shorter_arc_iff gives the exact condition for every pair of headings."
  },
  {
   "property": "C45",
   "status": "partial",
   "theorems": [
    "C45_columns_exact",
    "C45_aligned",
    "C45_aligned_refuted"
   ],
   "note": "False of the code: C45_aligned_refuted. C45_columns_exact gives the exact columns for every file; alignment is proved for every file whose bad lines already fail in the first field."
  },
  {
   "property": "C46",
   "status": "proved",
   "theorems": [
    "C46_exact_from_1980",
    "C46_epoch",
    "C46_strictly_increasing",
    "C46_round_trip_iff",
    "C46_gps_round_trip_iff",
    "C46_round_trip_refuted",
    "C46_before_1980",
    "C46_increasing_refuted",
    "C46_other_zone",
    "C46_other_zone_refuted",
    "C46_zone_of_1970_shifts"
   ],
   "note": "The time zone of the process is a parameter. The documented violations are C46_round_trip_refuted, C46_before_1980, C46_increasing_refuted, C46_other_zone_refuted and C46_zone_of_1970_shifts."
  },
  {
   "property": "C47",
   "status": "proved",
   "theorems": [
    "C47_week_seconds",
    "C47_total"
   ],
   "note": "In every time zone; exact real arithmetic."
  },
  {
   "property": "C48",
   "status": "partial",
   "theorems": [
    "C48_decode",
    "C48_decode_iff",
    "C48_decode_refuted",
    "C48_zero_denominator_raises"
   ],
   "note": "False of the code: C48_decode_refuted. C48_decode_iff gives the exact condition."
  },
  {
   "property": "C49",
   "status": "partial",
   "theorems": [
    "C49_subsecond_iff",
    "C49_leading_zero_refuted",
    "C49_negative_subsecond",
    "C49_calendar",
    "C49_invalid_date_raises",
    "C49_capture_time"
   ],
   "note": "False of the code: C49_leading_zero_refuted. C49_subsecond_iff gives the exact condition; C49_capture_time proves the whole capture time for tags without leading zero, against a day-counting calendar; C49_invalid_date_raises covers non-existent dates."
  },
  {
   "property": "C50",
   "status": "proved",
   "theorems": [
    "C50_metadata",
    "C50_field_names",
    "C50_band_last",
    "C50_band_initial",
    "C50_cases",
    "C50_errors",
    "C50_shared_refuted"
   ],
   "note": "All histories over any number of image objects and shared arrays. Simplified: data of another shape than the band raises (numpy broadcasting is not modelled)."
  },
  {
   "property": "C51",
   "status": "partial",
   "theorems": [
    "C51_all",
    "C51_mean",
    "C51_border",
    "C51_wraps",
    "C51_refuted"
   ],
   "note": "C51_mean proves it for windows that do not start left of or above the image; C51_border and C51_wraps describe the others exactly, C51_refuted shows the claim is false there."
  },
  {
   "property": "C52",
   "status": "partial",
   "theorems": [
    "C52_exact",
    "C52_sights",
    "C52_empty_error",
    "C52_zero_resolution",
    "C52_missed_refuted",
    "C52_false_alarm_refuted",
    "C52_antidiagonal",
    "C52_symmetric_partial"
   ],
   "note": "C52_exact says exactly what is computed. The claim is false: C52_missed_refuted, C52_false_alarm_refuted, C52_antidiagonal. C52_symmetric_partial: for terrain symmetric about the ground point a marked pixel is obstructed."
  },
  {
   "property": "C53",
   "status": "proved",
   "theorems": [
    "C53_border",
    "C53_vertices",
    "C53_contains"
   ],
   "note": "shapely's simplified convex hull is a contract hypothesis (outlines), shown satisfiable."
  },
  {
   "property": "C54",
   "status": "proved",
   "theorems": [
    "C54_mask",
    "C54_no_bands_error",
    "C54_nan_nodata",
    "C54_int8_refuted"
   ],
   "note": "The documented exceptions are C54_nan_nodata and C54_int8_refuted."
  },
  {
   "property": "C55",
   "status": "proved",
   "theorems": [
    "C55_cleanup_posix",
    "C55_remove_newlines_posix",
    "C55_cleanup_windows_lf",
    "C55_windows_refuted",
    "C55_snake_no_capital",
    "C55_snake_only_inserts_underscores",
    "C55_snake_idempotent",
    "C55_snake_camel_case"
   ],
   "note": "C55_windows_refuted is the documented violation for CR LF systems. str.lower and re.sub are modelled for ASCII."
  },
  {
   "property": "C56",
   "status": "proved",
   "theorems": [
    "C56_round_trip",
    "C56_last_empty_lost",
    "C56_empty_list_raises",
    "C56_newline_never_read_back",
    "C56_round_trip_refuted"
   ],
   "note": "The stated exceptions are C56_last_empty_lost, C56_empty_list_raises and C56_round_trip_refuted."
  },
  {
   "property": "C57",
   "status": "proved",
   "theorems": [
    "C57_transpose_entries",
    "C57_transposes_inverse",
    "C57_ragged_raises",
    "C57_remove_all",
    "C57_remove_nan"
   ],
   "note": "remove_all is proved for every element type with a boolean equality; NaN removes nothing (C57_remove_nan)."
  },
  {
   "property": "C58",
   "status": "proved",
   "theorems": [
    "C58_reader_round_trip",
    "C58_columns",
    "C58_no_rows_raises",
    "C58_empty_file_raises",
    "C58_ragged_raises"
   ],
   "note": "csv.reader is modelled as a state machine with the default dialect and any delimiter."
  },
  {
   "property": "C59",
   "status": "proved",
   "theorems": [
    "C59_external",
    "C59_external_bad_line",
    "C59_calibrated",
    "C59_calibrated_trailing_blank_raises",
    "C59_internal_exact",
    "C59_internal_complete",
    "C59_only_value_errors",
    "C59_internal_complete_refuted",
    "C59_master_entries",
    "C59_long_camera_suffix_raises",
    "C59_camera_zero_is_last",
    "C59_r_matrix_of_last_image_only"
   ],
   "note": "The documented violation is C59_internal_complete_refuted; C59_internal_exact gives the exact content for every file. Findings: camera 0 gets the last camera's parameters and r_matrix is stored for the last image only."
  },
  {
   "property": "C60",
   "status": "proved",
   "theorems": [
    "C60_envelope",
    "C60_ordered"
   ],
   "note": "shapely's envelope is a contract hypothesis, shown satisfiable. Degenerate envelopes (points, segments) are represented by their bounds."
  },
  {
   "property": "C61",
   "status": "partial",
   "theorems": [
    "C61_complete",
    "C61_truncated",
    "C61_reader",
    "C61_truncated_refuted"
   ],
   "note": "C61_complete and C61_truncated say exactly, for every length of data, what is read and what is rejected; the exception makes the claim false of the code: C61_truncated_refuted."
  },
  {
   "property": "C62",
   "status": "proved",
   "theorems": [
    "C62_mmi_symmetric",
    "C62_mmi_lower_bound",
    "C62_mmi_independent",
    "C62_mmi_self_best",
    "C62_mmi_self"
   ],
   "note": "Histograms are given with the contract that the joint histogram has the two histograms as marginals."
  },
  {
   "property": "C63",
   "status": "proved",
   "theorems": [
    "C63_uniform_image"
   ],
   "note": ""
  },
  {
   "property": "C64",
   "status": "proved",
   "theorems": [
    "C64_blend_between",
    "C64_blend_ends"
   ],
   "note": "Exact real arithmetic."
  },
  {
   "property": "C65",
   "status": "proved",
   "theorems": [
    "C65_envi_plot",
    "C65_envi_plot_bad_line_raises",
    "C65_svc",
    "C65_svc_bad_line_raises",
    "C65_svc_no_data_line_is_empty",
    "C65_csv",
    "C65_csv_too_few_headers_raises",
    "C65_usgs_column",
    "C65_usgs",
    "C65_usgs_missing",
    "C65_usgs_lengths_not_checked"
   ],
   "note": "float(text) is a parameter. C65_usgs_lengths_not_checked is a finding."
  },
  {
   "property": "C66",
   "status": "proved",
   "theorems": [
    "C66_list_one_extension",
    "C66_list_default",
    "C66_overlapping_extensions_refuted",
    "C66_inner_dot_refuted",
    "C66_start_with",
    "C66_path_from_subdirs",
    "C66_base_with_slash",
    "C66_absolute_subdir_resets"
   ],
   "note": "The documented violations are C66_overlapping_extensions_refuted and C66_inner_dot_refuted. os.listdir and glob are modelled as an arbitrary list of names."
  },
  {
   "property": "C67",
   "status": "proved",
   "theorems": [
    "C67_pixel_count"
   ],
   "note": "Exact real arithmetic."
  },
  {
   "property": "C68",
   "status": "partial",
   "theorems": [
    "C68_extent",
    "C68_rotated_refuted"
   ],
   "note": "C68_extent proves it for geotransforms without rotation; with rotation it is false of the code: C68_rotated_refuted."
  },
  {
   "property": "C69",
   "status": "partial",
   "theorems": [
    "C69_coregistered",
    "C69_geo_transform",
    "C69_separate",
    "C69_all_bands",
    "C69_errors",
    "C69_border_refuted",
    "C69_outside_refuted",
    "C69_outside"
   ],
   "note": "C69_coregistered, C69_separate and C69_outside say exactly what every cell holds; the claim is false at the border and outside: C69_border_refuted, C69_outside_refuted; C69_errors. scipy's map_coordinates is an arbitrary function (contract zero_outside where used)."
  },
  {
   "property": "C70",
   "status": "partial",
   "theorems": [
    "C70_size",
    "C70_small_extent",
    "C70_full",
    "C70_full_default",
    "C70_full_refused",
    "C70_default_gsd",
    "C70_gsd_refuted"
   ],
   "note": "C70_size, C70_full and C70_small_extent prove the first part; the default sample distance is C70_default_gsd, false as the pixel pitch: C70_gsd_refuted."
  },
  {
   "property": "C71",
   "status": "partial",
   "theorems": [
    "C71_constant_dem",
    "C71_on_terrain_partial",
    "C71_error_bound",
    "C71_terrain_refuted"
   ],
   "note": "C71_constant_dem and C71_on_terrain_partial; C71_error_bound bounds the error on terrain of bounded slope; false in general: C71_terrain_refuted."
  },
  {
   "property": "C72",
   "status": "partial",
   "theorems": [
    "C72_round_trip",
    "C72_memory_is_written",
    "C72_data_too_large",
    "C72_missing_bands",
    "C72_nodata_truncated",
    "C72_fractional_nodata_refuted",
    "C72_nan_nodata",
    "C72_cannot_create",
    "C72_copy",
    "C72_own_file_refuted",
    "C72_closed",
    "C72_memory_dataset",
    "C72_memory_refused"
   ],
   "note": "C72_round_trip, C72_copy, C72_memory_is_written, C72_memory_dataset; false for fractional and NaN no-data values and for writing an unloaded image to its own file: C72_fractional_nodata_refuted, C72_nan_nodata, C72_own_file_refuted, with C72_nodata_truncated as the exact statement; C72_data_too_large, C72_missing_bands, C72_cannot_create, C72_closed for the failures. GDAL's type conversion is an arbitrary function; the round trip assumes it keeps values of the file's own type."
  },
  {
   "property": "C73",
   "status": "partial",
   "theorems": [
    "C73_geotiff_band",
    "C73_geotiff_refused",
    "C73_geotiff_gone",
    "C73_camera_refused",
    "C73_all_is_each",
    "C73_numpy_image",
    "C73_camera_band_refuted",
    "C73_camera_all",
    "C73_camera_memory",
    "C73_micasense_band",
    "C73_micasense_all",
    "C73_micasense_refused"
   ],
   "note": "C73_geotiff_band, C73_all_is_each, C73_numpy_image, C73_micasense_band, C73_micasense_all, C73_camera_all, C73_camera_memory; a band of a camera image on disk is refuted: C73_camera_band_refuted."
  },
  {
   "property": "C74",
   "status": "proved",
   "theorems": [
    "C74_image",
    "C74_band_names",
    "C74_pix4d",
    "C74_pix4d_missing",
    "C74_opencv",
    "C74_two_digits_refuted",
    "C74_opencv_unoriented",
    "C74_opencv_oriented"
   ],
   "note": "As stated, including the documented exception (C74_two_digits_refuted); C74_opencv_unoriented adds that calculators from OpenCV parameters answer nothing until oriented, and C74_opencv_oriented that they then use every parameter."
  },
  {
   "property": "C75",
   "status": "proved",
   "theorems": [
    "C75_each_band",
    "C75_round_trip",
    "C75_distinct_names",
    "C75_default_names",
    "C75_missing_name",
    "C75_repeated_name_refuted"
   ],
   "note": "As stated, including the documented exception (C75_repeated_name_refuted). uuid4 is an arbitrary stream of names."
  },
  {
   "property": "C76",
   "status": "partial",
   "theorems": [
    "C76_camera",
    "C76_nudge",
    "C76_gimbal_image",
    "C76_unknown_order",
    "C76_units_ignored",
    "C76_units_refuted"
   ],
   "note": "C76_camera is the exact statement over all histories, with C76_nudge, C76_gimbal_image and C76_unknown_order for the exceptions; the documented units are refuted: C76_units_refuted, C76_units_ignored."
  },
  {
   "property": "C77",
   "status": "partial",
   "theorems": [
    "C77_tilted",
    "C77_pixels",
    "C77_accuracy",
    "C77_level",
    "C77_no_inverse",
    "C77_projection_refuted"
   ],
   "note": "C77_pixels, C77_accuracy and C77_level over all histories, C77_tilted for tilted cameras whose view of the ground is not too bent (explicit bounds in Spec_Perspective); for projections other than the geotiff's it is refuted: C77_projection_refuted. scipy's map_coordinates is an arbitrary function; for cameras outside the bounds of C77_tilted convergence is not claimed (C77_accuracy says what holds when it stops early)."
  },
  {
   "property": "C78",
   "status": "proved",
   "theorems": [
    "C78_zone",
    "C78_out_of_range",
    "C78_camera"
   ],
   "note": "C78_zone, C78_out_of_range, C78_camera. The utm package is a contract (shown satisfiable), pyproj's transform an arbitrary function."
  },
  {
   "property": "C79",
   "status": "partial",
   "theorems": [
    "C79_group",
    "C79_degrees",
    "C79_ground",
    "C79_meters_refuted"
   ],
   "note": "C79_group and C79_degrees; the distances are refuted: C79_ground (exact for eastward shifts) and C79_meters_refuted. Web Mercator is EPSG 3857's definition; pyproj is assumed to compute it exactly."
  },
  {
   "property": "C80",
   "status": "partial",
   "theorems": [
    "C80_positions",
    "C80_terrain",
    "C80_default_refuted",
    "C80_data"
   ],
   "note": "C80_positions, C80_terrain, C80_data; the default is refuted: C80_default_refuted."
  },
  {
   "property": "C81",
   "status": "partial",
   "theorems": [
    "C81_scores_by_corner",
    "C81_class_scores",
    "C81_one_chip",
    "C81_one_class",
    "C81_progress",
    "C81_no_ledger_refuted",
    "C81_errors",
    "C81_overlap_too_large"
   ],
   "note": "C81_scores_by_corner, C81_class_scores, C81_one_chip, C81_one_class, C81_progress and C81_errors with a ledger; without one (the default) it is refuted: C81_no_ledger_refuted. scipy's imresize and the model are arbitrary functions with a shape contract (C81_contracts)."
  },
  {
   "property": "C82",
   "status": "proved",
   "theorems": [
    "C82_labels_file",
    "C82_generators",
    "C82_missing_class_refuted",
    "C82_other_numbering_refuted",
    "C82_training_steps",
    "C82_training_errors"
   ],
   "note": "As stated, including the documented exceptions (C82_missing_class_refuted, C82_other_numbering_refuted, C82_training_errors). keras' numbering of directories and its epoch loop are the model's contract with keras."
  },
  {
   "property": "C83",
   "status": "proved",
   "theorems": [
    "C83_probabilities",
    "C83_scores",
    "C83_position_independent",
    "C83_order_kept",
    "C83_needs_feature_map_refuted",
    "C83_freeze"
   ],
   "note": "As stated. Dense, GlobalAveragePooling2D, Dropout at prediction time and softmax are given their documented meaning over the reals."
  },
  {
   "property": "C84",
   "status": "proved",
   "theorems": [
    "C84_meaning",
    "C84_bins",
    "C84_symmetric",
    "C84_self_best",
    "C84_lower_bound",
    "C84_brightness_invariant",
    "C84_pixel_order",
    "C84_errors",
    "C84_negative_refuted"
   ],
   "note": "As stated, over exact reals. numpy's histogram and histogram2d are modelled from their documented algorithm (default range, truncated scaled value, searchsorted on the edges); they are proved to count the same bins."
  },
  {
   "property": "C85",
   "status": "proved",
   "theorems": [
    "C85_from_file",
    "C85_errors",
    "C85_extra_coefficients",
    "C85_few_coefficients"
   ],
   "note": "As stated; GDAL's RPC metadata and float(str) are parameters."
  },
  {
   "property": "C86",
   "status": "proved",
   "theorems": [
    "C86_vrs_open",
    "C86_vrs_refused",
    "C86_vrs_read",
    "C86_envi_written",
    "C86_envi_read",
    "C86_envi_errors",
    "C86_envi_refused",
    "C86_envi_stale_header_refuted"
   ],
   "note": "Proved for a directory without a header of the shortened name; C86_envi_stale_header_refuted shows that the qualification is needed. GDAL's reading of the file is a hypothesis (bands_of_cube)."
  },
  {
   "property": "C87",
   "status": "proved",
   "theorems": [
    "C87_p_matrices",
    "C87_blank_line_refuted",
    "C87_double_blank",
    "C87_files_found",
    "C87_endings_distinct",
    "C87_missing_file",
    "C87_ambiguous_refuted"
   ],
   "note": "As stated, with the three exceptions refuted by name. The conversion of the projection text is not modelled."
  },
  {
   "property": "C88",
   "status": "proved",
   "theorems": [
    "C88_sbet",
    "C88_projection",
    "C88_record_length_refuted",
    "C88_errors"
   ],
   "note": "As stated, with the EO record length exception. PDAL's result is a parameter."
  },
  {
   "property": "C89",
   "status": "proved",
   "theorems": [
    "C89_interpolation",
    "C89_cells",
    "C89_geo_transform",
    "C89_outside",
    "C89_nearest",
    "C89_agrees",
    "C89_all_bands",
    "C89_errors",
    "C89_grid_refused",
    "C89_resize"
   ],
   "note": "As stated; scikit-image's warp and PIL's resize are parameters with contracts (shown satisfiable by C89_contract_met, C89_resize_met)."
  },
  {
   "property": "C90",
   "status": "proved",
   "theorems": [
    "C90_object",
    "C90_object_backup",
    "C90_error",
    "C90_file",
    "C90_nan_nodata",
    "C90_no_type",
    "C90_alpha",
    "C90_alpha_refuted",
    "C90_placement"
   ],
   "note": "The object, file and error statements are proved; that cells without data are transparent is refuted (C90_alpha_refuted, with the exact condition in C90_alpha), and the placement is off as C90_placement states."
  },
  {
   "property": "C91",
   "status": "proved",
   "theorems": [
    "C91_attributes",
    "C91_elevations",
    "C91_not_loaded",
    "C91_altitudes",
    "C91_mean",
    "C91_load",
    "C91_load_fails",
    "C91_convert",
    "C91_convert_memory",
    "C91_convert_fails",
    "C91_convert_stale",
    "C91_no_conversion",
    "C91_factory",
    "C91_constant",
    "C91_load_fails_refuted",
    "C91_convert_stale_refuted"
   ],
   "note": "As stated, including the exceptions; gdal.Warp is a parameter (which files it gives is GDAL's). Conversions are proved for images open on a file, the only ones a DEM can load."
  },
  {
   "property": "C92",
   "status": "proved",
   "theorems": [
    "C92_rounding",
    "C92_normalise",
    "C92_degenerate",
    "C92_cast",
    "C92_overshoot_refuted",
    "C92_identity_refuted"
   ],
   "note": "As stated, with the exceptions as theorems. Rounding is Flocq's round to nearest even with a least exponent; overflow to infinity is not modelled."
  },
  {
   "property": "C93",
   "status": "proved",
   "theorems": [
    "C93_gps_exact",
    "C93_week",
    "C93_whole_refuted"
   ],
   "note": "As stated."
  },
  {
   "property": "C94",
   "status": "proved",
   "theorems": [
    "C94_error",
    "C94_at_record_error",
    "C94_at_record",
    "C94_exact_refuted"
   ],
   "note": "As stated; no overflow."
  },
  {
   "property": "C95",
   "status": "proved",
   "theorems": [
    "C95_ends",
    "C95_monotone",
    "C95_error",
    "C95_between_refuted"
   ],
   "note": "As stated; no overflow."
  },
  {
   "property": "C96",
   "status": "proved",
   "theorems": [
    "C96_error",
    "C96_integers",
    "C96_range_refuted"
   ],
   "note": "As stated; numpy's sums are a parameter constrained only to be some summation tree of rounded or fused terms, and both counterexamples hold for all of them."
  },
  {
   "property": "C97",
   "status": "proved",
   "theorems": [
    "C97_integers",
    "C97_error",
    "C97_constant_refuted"
   ],
   "note": "As stated (without a mask); numpy's sum is a parameter constrained only to be some summation tree."
  },
  {
   "property": "C98",
   "status": "proved",
   "theorems": [
    "C98_normalise_unsigned",
    "C98_normalise_signed",
    "C98_normalise_wrapped",
    "C98_range_refuted",
    "C98_sam_exact",
    "C98_sam_image",
    "C98_sam_none",
    "C98_sam_refuted"
   ],
   "note": "As stated; float rounding after the integer arithmetic is not part of this property (C92, C96)."
  },
  {
   "property": "C99",
   "status": "proved",
   "theorems": [
    "C99_make_dir",
    "C99_file_refuted",
    "C99_schedules",
    "C99_race_refuted",
    "C99_folders"
   ],
   "note": "As stated, with the exceptions as theorems. os.makedirs is modelled from the standard library as a sequence of stat and mkdir calls; no permissions, links or full disks."
  },
  {
   "property": "C100",
   "status": "proved",
   "theorems": [
    "C100_flatten",
    "C100_shares",
    "C100_orders",
    "C100_unflatten",
    "C100_pure",
    "C100_pca",
    "C100_pca_refuted",
    "C100_band",
    "C100_rank"
   ],
   "note": "As stated, with the exception as a theorem. numpy's rule for reshaping without a copy is modelled; sklearn's analysis is a parameter: its scores and what it leaves in its input are arbitrary functions. That the functions of the 1d module return new arrays is part of the model (on_flattened)."
  },
  {
   "property": "C101",
   "status": "proved",
   "theorems": [
    "C101_round_trip",
    "C101_centre",
    "C101_dem_centre",
    "C101_corner_refuted",
    "C101_power_of_two",
    "C101_location",
    "C101_dem_lookup",
    "C101_rotated"
   ],
   "note": "As stated, with the exception as a theorem. GDAL's inverse is modelled for geotransforms without rotation (its special case); no overflow; the magnitude of the pixel size is between 2^-400 and 2^400."
  },
  {
   "property": "C102",
   "status": "proved",
   "theorems": [
    "C102_nodes",
    "C102_continuous",
    "C102_discrete",
    "C102_bytes",
    "C102_tiny_range_refuted",
    "C102_refused",
    "C102_subnormal_nodes"
   ],
   "note": "As stated, with the exception as a theorem. Without n_bins; the image has the floating type of the arithmetic; no overflow; the range is at least 2^-400."
  },
  {
   "property": "C103",
   "status": "proved",
   "theorems": [
    "C103_written",
    "C103_unsupported",
    "C103_other_interleave_zero_bytes",
    "C103_read",
    "C103_value_unique",
    "C103_refused",
    "C103_other_machine",
    "C103_round_trip",
    "C103_bytes_portable",
    "C103_swapped_uint16",
    "C103_byte_order_refuted",
    "C103_header_offset_refuted",
    "C103_double_complex_refuted"
   ],
   "note": "As stated, with the exceptions as theorems. Headers are ASCII; the image has the machine's byte order (numpy arrays of the other order have no code and raise after the data are written, like C01)."
  },
  {
   "property": "C104",
   "status": "proved",
   "theorems": [
    "C104_cut_header",
    "C104_killed_new",
    "C104_killed_over",
    "C104_killed_over_refuted",
    "C104_other_shape_refuted"
   ],
   "note": "As stated, with the exceptions as theorems. The two files are written in order and each file's bytes in order (a killed process; not a power failure that reorders blocks)."
  },
  {
   "property": "C105",
   "status": "proved",
   "theorems": [
    "C105_statistics",
    "C105_reordered",
    "C105_rearranged",
    "C105_ace_affine",
    "C105_sam_orthogonal",
    "C105_repeated",
    "C105_rx_repeated_refuted"
   ],
   "note": "As stated, in exact arithmetic; numpy.linalg.inv returns the inverse exactly when there is one (C105_ex_inv)."
  },
  {
   "property": "C106",
   "status": "proved",
   "theorems": [
    "C106_list_cut",
    "C106_list_cut_refuted",
    "C106_eo_cut",
    "C106_chips_killed",
    "C106_list_killed",
    "C106_run_again",
    "C106_eo_cut_refuted"
   ],
   "note": "As stated, with the exceptions as theorems. Files are written one after the other and each from its beginning (a killed process, not a power failure that reorders blocks); imageio's encoding of a chip is an arbitrary function."
  },
  {
   "property": "C107",
   "status": "proved",
   "theorems": [
    "C107_window",
    "C107_pixels",
    "C107_linear",
    "C107_not_loaded",
    "C107_generations",
    "C107_all_lost",
    "C107_drift",
    "C107_unchanged_refuted"
   ],
   "note": "As stated. scipy's map_coordinates of orders 0 (halves round up) and 1 enter through contracts shown satisfiable; the image's projection is the world projection; exact arithmetic."
  },
  {
   "property": "C108",
   "status": "proved",
   "theorems": [
    "C108_rate",
    "C108_monotone",
    "C108_bounds",
    "C108_units",
    "C108_uniform",
    "C108_local",
    "C108_refined"
   ],
   "note": "As stated, in exact arithmetic (headings as plain numbers; their wrap around is C44). C94 bounds the rounding error of each answer."
  },
  {
   "property": "C109",
   "status": "proved",
   "theorems": [
    "C109_grid",
    "C109_count",
    "C109_exact_fit",
    "C109_gaps",
    "C109_determined"
   ],
   "note": "As stated. C07 and C08 give coverage and contents; here the corners themselves, their number and the converse."
  },
  {
   "property": "C110",
   "status": "proved",
   "theorems": [
    "C110_detection_map",
    "C110_unique",
    "C110_local"
   ],
   "note": "As stated, over exact reals; the resizer and the model are arbitrary functions with the shape contracts of C81, shown satisfiable. One-chip images and one-class models fail as in C81."
  },
  {
   "property": "C111",
   "status": "proved",
   "theorems": [
    "C111_pinhole",
    "C111_pinhole_turned",
    "C111_fixtured",
    "C111_opencv",
    "C111_ortho",
    "C111_extent",
    "C111_full",
    "C111_obstruction",
    "C111_obstruction_unit_refuted"
   ],
   "note": "As stated, over exact reals. Shapely's hull is an argument required to commute with the change (its simplification tolerance of 0.001 is a fixed length, so this is a real restriction on changes of unit; a shift needs none). C111_obstruction_unit_refuted: the fixed 5 m step of the search makes the marking depend on the unit."
  },
  {
   "property": "C112",
   "status": "proved",
   "theorems": [
    "C112_level",
    "C112_tilted"
   ],
   "note": "As stated, over exact reals. Composes C76, C77 and C69: scipy's nearest sampling is an argument whose contract (the pixel nearest to the location, halves up) is shown satisfiable; the geotiff sampler of the simulator is arbitrary. C112_tilted has the bending and range conditions of C77_tilted as hypotheses (met by C77_tilted_met)."
  },
  {
   "property": "C113",
   "status": "proved",
   "theorems": [
    "C113_same_place",
    "C113_part",
    "C113_joined",
    "C113_coarser",
    "C113_chips",
    "C113_geo_transform",
    "C113_geo_transform_refuted"
   ],
   "note": "As stated, over exact reals (in doubles the cell centres of part and whole agree only up to rounding). C113_geo_transform gives the exact displacement and C113_geo_transform_refuted a case of 0.4 pixel."
  },
  {
   "property": "C114",
   "status": "proved",
   "theorems": [
    "C114_grid",
    "C114_order",
    "C114_inside",
    "C114_pixel_size"
   ],
   "note": "As stated, for IEEE round-to-nearest-even with gradual underflow (Flocq's FLT format); overflow is not modelled. C114_met: a UTM window, where the error is below ten nanometres."
  },
  {
   "property": "C115",
   "status": "proved",
   "theorems": [
    "C115_parts",
    "C115_whole_statistics",
    "C115_own_statistics_refuted",
    "C115_pooled",
    "C115_pooled_strips"
   ],
   "note": "As stated, over exact reals; the last sentence is C115_own_statistics_refuted (an RX score of a pixel under its part's own statistics differs from its score in the whole). The whole's statistics exclude one-band images, where the code's inverse of a 0-d covariance raises (C18)."
  }
 ]
}