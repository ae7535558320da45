# DESIGN

A Rocq (Coq 8.16.1) model of BeamIO-Inc/resippy, and proofs of the 115 properties of
`properties.jsonl` about it. Build: `cd rocq && coq_makefile -f _CoqProject -o Makefile && make -j4`
(about two minutes).

## 1. Layout

| file | content |
|---|---|
| `Py.v` | Python results, exceptions, integers, negative indices, slices, `range`, lists |
| `Text.v`, `Text2.v` | texts as lists of ASCII characters: find, split, join, strip, replace, `int()`, `str()` |
| `Arr.v`, `LinAlg.v`, `RAux.v`, `Geo3.v` | arrays, finite sums over R, booleans on R, 3-vectors and 3x3 matrices |
| `M_*.v` | **the model**: one definition per function of the code, each with the file and lines it models |
| `Spec_*.v` | small independent vocabulary used in theorem statements (no model helper in them) |
| `P_*.v` | lemmas |
| `Prop_*.v` | **the theorems**, named `Cnn_...`, each followed by `Print Assumptions`, and examples that meet the hypotheses |

A theorem named `..._refuted` is a proof, with a witness, that the plain English claim is **false of the
code**; beside it stand the exact true statement (an `iff` where possible) and the part that holds.
A name ending in `_partial` proves a part; what is missing is in its comment and in `MANIFEST.json`.

## 2. Trusted base

1. Coq's kernel (type checker, universe checker, the guard condition, and `vm_compute`, which some proofs
   use on closed terms; `native_compute` is not used). No flag disables a check; there is no plugin.
2. The axioms of Coq's standard library that `Print Assumptions` lists. They come from the construction of
   the reals and are the only ones:
   `ClassicalDedekindReals.sig_forall_dec`, `ClassicalDedekindReals.sig_not_dec`,
   `FunctionalExtensionality.functional_extensionality_dep`, `Classical_Prop.classic`.
   One other library is used, for C92 - C97: Flocq (the definition of rounding and its basic lemmas); it adds
   no axiom. No axiom, parameter, functor,
   module type or admitted proof is in the development.
3. That the model says what the code does. This is a reading of the Python text; the code was not run. Each
   definition cites its lines and says where it simplifies. Section 4 lists what is and is not modelled.
4. That the theorem statements say what the English says; they use the model and `Spec_*.v` only.

### What `Print Assumptions` lists, for each of the 707 theorems

* **no axiom** (`Closed under the global context`): 220 theorems: C01_code_round_trip, C01_codes_injective, C01_complex_code_refuted, C01_dtype_round_trip, C01_standard_codes_except_complex, C01_supported_dtypes, C01_unsupported_partial_write, C02_bil_layout, C02_bil_round_trip, C02_file_size, C02_image_file_round_trip, C03_other_interleave_read_zeros, C03_other_interleave_refuted, C03_other_interleave_write_zeros, C04_bracket_text_refuted, C04_header_round_trip, C04_last_entry_wins, C05_diverges_only, C05_only_value_errors, C05_read_header_terminates, C05_unclosed_brace_diverges_refuted, C06_envi_image_header, C06_named_header_only, C06_no_header_raises, C06_read_envi_image_header, C06_readers_agree_refuted, C07_chips_cover_image, C07_overlap_at_least_requested, C07_overlap_too_large, C08_chips_exact, C08_inside_unchanged, C08_one_row_image_replicated_refuted, C08_refused, C08_shapes, C08_too_tall_rejected, C08_unclamped_inside, C09_corner_within_one, C09_even_chip_centered, C09_odd_chip_not_centered_refuted, C09_odd_chip_position, C100_band, C100_flatten, C100_orders, C100_pca, C100_pca_refuted, C100_pure, C100_rank, C100_shares, C100_unflatten, C103_swapped_uint16, C104_cut_header, C106_chips_killed, C106_eo_cut, C106_eo_cut_refuted, C106_list_cut, C106_list_cut_refuted, C106_list_killed, C109_count, C109_determined, C109_exact_fit, C109_gaps, C109_grid, C10_chip_file_paths, C10_chip_files_distinct, C10_given_names_can_collide, C10_given_names_used, C10_one_band_chips_not_writable_refuted, C10_pixels_kept, C11_adding_a_chip, C11_detection_image_is_maximum, C11_negative_score_lowers_background, C11_no_chips_raises, C11_order_independent, C11_refused, C12_flat_order, C12_flatten_unflatten, C12_image_dims, C12_pixel_grid, C12_unflatten_flatten, C12_wrong_size_rejected, C13_empty_refused, C15_any_colour, C15_mask_exact, C15_other_shapes, C15_shared_label_last_wins, C21_flat_order, C21_flatten_unflatten, C21_unflatten_flatten, C21_unflatten_refused, C23_new, C36_no_center, C38_pixel_exact, C39_add, C39_bad_update, C39_every_band, C39_last_stored, C39_other_bands, C39_projection, C43_eo_columns, C45_aligned, C45_aligned_refuted, C45_columns_exact, C49_calendar, C50_band_initial, C50_band_last, C50_cases, C50_errors, C50_field_names, C50_metadata, C50_shared_refuted, C52_empty_error, C53_border, C55_cleanup_posix, C55_cleanup_windows_lf, C55_remove_newlines_posix, C55_snake_camel_case, C55_snake_idempotent, C55_snake_no_capital, C55_snake_only_inserts_underscores, C55_windows_refuted, C56_empty_list_raises, C56_last_empty_lost, C56_newline_never_read_back, C56_round_trip, C56_round_trip_refuted, C57_ragged_raises, C57_remove_all, C57_remove_nan, C57_transpose_entries, C57_transposes_inverse, C58_columns, C58_empty_file_raises, C58_no_rows_raises, C58_ragged_raises, C58_reader_round_trip, C59_calibrated, C59_calibrated_trailing_blank_raises, C59_camera_zero_is_last, C59_external, C59_external_bad_line, C59_internal_complete, C59_internal_complete_refuted, C59_internal_exact, C59_long_camera_suffix_raises, C59_master_entries, C59_only_value_errors, C59_r_matrix_of_last_image_only, C61_complete, C61_reader, C61_truncated, C61_truncated_refuted, C63_uniform_image, C65_csv, C65_csv_too_few_headers_raises, C65_envi_plot, C65_envi_plot_bad_line_raises, C65_svc, C65_svc_bad_line_raises, C65_svc_no_data_line_is_empty, C65_usgs, C65_usgs_column, C65_usgs_lengths_not_checked, C65_usgs_missing, C66_absolute_subdir_resets, C66_base_with_slash, C66_inner_dot_refuted, C66_list_default, C66_list_one_extension, C66_overlapping_extensions_refuted, C66_path_from_subdirs, C66_start_with, C73_all_is_each, C73_camera_all, C73_camera_band_refuted, C73_camera_memory, C73_camera_refused, C73_geotiff_band, C73_geotiff_gone, C73_geotiff_refused, C73_micasense_all, C73_micasense_band, C73_micasense_refused, C73_numpy_image, C74_band_names, C74_image, C74_opencv_unoriented, C74_two_digits_refuted, C75_repeated_name_refuted, C82_generators, C82_missing_class_refuted, C83_freeze, C83_needs_feature_map_refuted, C85_errors, C85_from_file, C86_envi_errors, C86_envi_read, C86_envi_refused, C86_envi_stale_header_refuted, C86_envi_written, C86_vrs_open, C86_vrs_read, C86_vrs_refused, C87_ambiguous_refuted, C87_blank_line_refuted, C87_double_blank, C87_endings_distinct, C87_files_found, C87_missing_file, C87_p_matrices, C88_projection, C88_record_length_refuted, C89_grid_refused, C89_interpolation, C89_resize, C91_constant, C99_file_refuted, C99_folders, C99_make_dir, C99_race_refuted, C99_schedules.
* `ClassicalDedekindReals.sig_forall_dec`: 10 theorems: C33_short_list, C34_forward, C34_singular, C35_altitudes, C35_numbers, C35_pointwise, C35_size_mismatch, C38_altitude_image, C38_altitude_zero, C85_extra_coefficients.
* `FunctionalExtensionality.functional_extensionality_dep`: 5 theorems: C75_default_names, C75_distinct_names, C75_each_band, C75_missing_name, C75_round_trip.
* `ClassicalDedekindReals.sig_forall_dec`, `FunctionalExtensionality.functional_extensionality_dep`: 282 theorems: C102_bytes, C105_ace_affine, C105_rearranged, C105_repeated, C105_rx_repeated_refuted, C105_statistics, C107_all_lost, C107_drift, C107_generations, C107_linear, C107_not_loaded, C107_pixels, C107_unchanged_refuted, C107_window, C110_detection_map, C110_local, C110_unique, C111_extent, C111_ortho, C111_pinhole, C111_pinhole_turned, C113_chips, C113_coarser, C113_geo_transform, C113_geo_transform_refuted, C113_joined, C113_part, C113_same_place, C115_own_statistics_refuted, C115_pooled, C115_pooled_strips, C13_constant_image_nan, C13_normalise, C14_any_palette_exact, C14_clipped, C14_constant_image_nan, C14_default_clips, C14_default_clips_cover, C14_degenerate, C14_discrete_last_edge_refuted, C14_discrete_steps, C14_image, C14_in_range_interpolates, C14_long_palette_black_refuted, C14_long_palette_refuted, C14_n_bins, C14_node_colour, C14_nodes, C14_same_bin_count_identity, C14_uint8_any, C14_uint8_channels, C14_uint8_colours, C14_uint8_truncates, C16_demean_idempotent, C16_demean_is_a_shift, C16_demeaned_mean_zero, C16_masked_pixels_irrelevant, C16_mean_defined, C16_mean_is_average, C17_covariance_defined, C17_covariance_is_sample_covariance, C17_linear_transform, C17_symmetric_and_positive_semidefinite, C17_translation_invariant, C18_default_affine_invariant, C18_default_degenerate, C18_default_non_negative, C18_default_sum, C18_default_translation_invariant, C18_non_negative, C18_one_band_default_raises, C18_score, C18_translation_invariant, C18_zero_at_mean, C18_zero_only_at_mean, C19_ace_is_ace_demeaned, C19_default_degenerate, C19_default_is_ace_demeaned, C19_default_range, C19_defined, C19_one_iff_multiple, C19_range, C19_scale_invariant, C21_ace, C21_ace_default, C21_ace_demeaned, C21_cov_eq, C21_cov_eq_matrix, C21_cov_eq_matrix_default_mask_raises, C21_cov_eq_pixels, C21_covariance, C21_demean, C21_masked_covariance, C21_masked_mean, C21_mean, C21_rx, C21_rx_default, C22_equalised_covariance, C22_one_band_raises, C22_refused, C22_stays_centred, C23_arrays_untouched, C23_getters, C23_last_write_wins, C23_later_reads_agree, C23_no_data, C23_read_is_a_copy, C23_wavelengths_are_shared, C24_bands, C24_constant, C24_defined, C24_exact, C24_linear, C24_nodata_poisons_every_band, C24_refused, C24_units, C24_within_range, C28_grid, C28_offset, C28_refuted, C28_small_grid_error, C29_defined, C29_pixel_ray, C29_principal_point, C29_same_ray, C29_translation, C32_init_errors, C32_third_coefficient_iff, C33_common_factor, C33_exact, C33_pixel, C33_refuted, C34_round_trip, C36_affine, C36_converges, C36_converges_eventually, C36_default_steps, C36_empty, C36_nan_steps, C36_no_step, C36_own_steps, C36_pinhole, C36_projection, C36_refuted, C36_stops, C36_zero_slope, C38_altitude_refuted, C40_bounds, C40_everywhere, C41_bounds_tight, C41_from_file, C41_integer_nodata, C41_no_nodata, C41_nodata, C42_unknown_method, C43_channels, C43_curve, C43_empty_table_raises, C43_eo_file, C43_records, C43_single_record_refuted, C44_shorter_arc_iff, C44_shorter_arc_refuted, C46_before_1980, C46_epoch, C46_exact_from_1980, C46_gps_round_trip_iff, C46_increasing_refuted, C46_other_zone, C46_other_zone_refuted, C46_round_trip_iff, C46_round_trip_refuted, C46_strictly_increasing, C46_zone_of_1970_shifts, C47_total, C47_week_seconds, C48_decode, C48_decode_iff, C48_decode_refuted, C48_zero_denominator_raises, C49_capture_time, C49_invalid_date_raises, C49_leading_zero_refuted, C49_negative_subsecond, C49_subsecond_iff, C51_all, C51_border, C51_mean, C51_refuted, C51_wraps, C53_contains, C53_vertices, C54_int8_refuted, C54_mask, C54_nan_nodata, C54_no_bands_error, C60_envelope, C60_ordered, C64_blend_between, C64_blend_ends, C67_pixel_count, C68_extent, C68_rotated_refuted, C69_all_bands, C69_border_refuted, C69_coregistered, C69_errors, C69_geo_transform, C69_outside, C69_outside_refuted, C69_separate, C70_size, C71_constant_dem, C71_error_bound, C71_on_terrain_partial, C71_terrain_refuted, C72_cannot_create, C72_closed, C72_copy, C72_data_too_large, C72_fractional_nodata_refuted, C72_memory_dataset, C72_memory_is_written, C72_memory_refused, C72_missing_bands, C72_nan_nodata, C72_nodata_truncated, C72_own_file_refuted, C72_round_trip, C74_pix4d, C74_pix4d_missing, C76_nudge, C78_zone, C79_group, C81_class_scores, C81_errors, C81_no_ledger_refuted, C81_one_chip, C81_one_class, C81_overlap_too_large, C81_progress, C81_scores_by_corner, C82_labels_file, C82_other_numbering_refuted, C82_training_errors, C82_training_steps, C84_bins, C85_few_coefficients, C88_errors, C88_sbet, C89_agrees, C89_all_bands, C89_cells, C89_errors, C89_geo_transform, C89_nearest, C89_outside, C90_alpha, C90_alpha_refuted, C90_error, C90_file, C90_nan_nodata, C90_no_type, C90_object, C90_object_backup, C90_placement, C91_altitudes, C91_convert, C91_convert_fails, C91_convert_memory, C91_convert_stale, C91_convert_stale_refuted, C91_factory, C91_load, C91_load_fails, C91_load_fails_refuted, C91_mean, C91_no_conversion, C98_normalise_signed, C98_normalise_unsigned, C98_normalise_wrapped, C98_range_refuted.
* `ClassicalDedekindReals.sig_forall_dec`, `ClassicalDedekindReals.sig_not_dec`, `FunctionalExtensionality.functional_extensionality_dep`: 88 theorems: C105_reordered, C105_sam_orthogonal, C111_fixtured, C111_full, C111_obstruction, C111_obstruction_unit_refuted, C111_opencv, C115_parts, C115_whole_statistics, C20_cosine, C20_defined, C20_negation, C20_one_iff_same_direction, C20_range, C20_scale_invariant, C21_sam, C25_rotation, C25_unknown_order, C27_exact, C27_refuted, C29_image_ray, C30_by_angles, C30_composition, C30_unset, C31_focal_length, C31_pinhole, C31_projection, C31_same_ray, C31_uninitialised, C31_unset, C32_projection, C32_r_matrix, C32_reverse_flags, C32_third_coefficient_refuted, C32_zero_distortion, C37_2d, C37_first_crossing, C37_flat_refuted, C37_gaps, C37_negative_distance, C37_projection, C37_refused, C37_shapes, C37_vertical, C37_wrong_bounds, C38_few_nodes, C38_inside, C38_node, C38_node_refuted, C38_range, C41_bounds, C41_containing, C41_nearest_pixel, C41_single_row, C42_at_pixel_refuted, C42_between, C42_closer_heavier_refuted, C42_fails_iff, C42_reversed, C42_weights, C52_antidiagonal, C52_exact, C52_false_alarm_refuted, C52_missed_refuted, C52_sights, C52_symmetric_partial, C52_zero_resolution, C70_default_gsd, C70_full, C70_full_default, C70_full_refused, C70_gsd_refuted, C70_small_extent, C74_opencv, C74_opencv_oriented, C78_camera, C78_out_of_range, C80_data, C80_default_refuted, C80_positions, C80_terrain, C83_position_independent, C83_probabilities, C83_scores, C98_sam_exact, C98_sam_image, C98_sam_none, C98_sam_refuted.
* `ClassicalDedekindReals.sig_forall_dec`, `Classical_Prop.classic`, `FunctionalExtensionality.functional_extensionality_dep`: 10 theorems: C108_bounds, C108_local, C108_monotone, C108_rate, C108_refined, C108_uniform, C108_units, C91_attributes, C91_elevations, C91_not_loaded.
* `ClassicalDedekindReals.sig_forall_dec`, `ClassicalDedekindReals.sig_not_dec`, `Classical_Prop.classic`, `FunctionalExtensionality.functional_extensionality_dep`: 92 theorems: C101_centre, C101_corner_refuted, C101_dem_centre, C101_dem_lookup, C101_location, C101_power_of_two, C101_rotated, C101_round_trip, C102_continuous, C102_discrete, C102_nodes, C102_refused, C102_subnormal_nodes, C102_tiny_range_refuted, C103_byte_order_refuted, C103_bytes_portable, C103_double_complex_refuted, C103_header_offset_refuted, C103_other_interleave_zero_bytes, C103_other_machine, C103_read, C103_refused, C103_round_trip, C103_unsupported, C103_value_unique, C103_written, C104_killed_new, C104_killed_over, C104_killed_over_refuted, C104_other_shape_refuted, C106_run_again, C112_level, C112_tilted, C114_grid, C114_inside, C114_order, C114_pixel_size, C26_gimbal_lock, C26_rebuild, C26_recover, C29_ifov, C62_mmi_independent, C62_mmi_lower_bound, C62_mmi_self, C62_mmi_self_best, C62_mmi_symmetric, C76_camera, C76_gimbal_image, C76_units_ignored, C76_units_refuted, C76_unknown_order, C77_accuracy, C77_level, C77_no_inverse, C77_pixels, C77_projection_refuted, C77_tilted, C79_degrees, C79_ground, C79_meters_refuted, C83_order_kept, C84_brightness_invariant, C84_errors, C84_lower_bound, C84_meaning, C84_negative_refuted, C84_pixel_order, C84_self_best, C84_symmetric, C92_cast, C92_degenerate, C92_identity_refuted, C92_normalise, C92_overshoot_refuted, C92_rounding, C93_gps_exact, C93_week, C93_whole_refuted, C94_at_record, C94_at_record_error, C94_error, C94_exact_refuted, C95_between_refuted, C95_ends, C95_error, C95_monotone, C96_error, C96_integers, C96_range_refuted, C97_constant_refuted, C97_error, C97_integers.

## 3. Modelling conventions

* **Exceptions** are values: `result A` is `Ok a`, `Err e` (the exception class) or `Diverges`. `bind`
  (`x <- e ;; ...`) keeps Python's order of evaluation, so which exception comes first is part of the model.
* **Loops** over data are folds or structural recursion. A `while` loop has fuel; running out gives
  `Diverges`, and theorems say so for every fuel (non-termination) or for enough fuel (termination).
* **Integers** are `Z`; negative indices, slices and `range` follow CPython (`Py.v`).
* **Floating point** is exact real arithmetic (`R`), except in `M_Float.v`, where seven functions are
  modelled with every operation rounded (IEEE, ties to even). Overflow and signed zeros are not modelled.
  NaN and the infinities are one value `NonFinite` (type `flt`) wherever the code can produce one (division
  by zero, arcsin outside [-1,1], empty means, no-data). A comparison with `NonFinite` is false.
* **numpy arrays** are lists, lists of rows, or lists of rows of pixels; ranks are the inductive type `narr`
  where a function accepts several. Arrays shared by reference (spectra, image data, point calculators) live
  in an explicit heap, and properties quantify over all histories of calls.
* **External libraries** are function arguments with contract hypotheses, each shown satisfiable by an
  example: `numpy.linalg.inv`, fractional matrix powers, `gdal.InvGeoTransform`, pyproj transforms, shapely
  hull and envelope, scipy `cKDTree` and `map_coordinates`, `colorutils.hex_to_rgb`, `float(text)`, the
  directory listing, the process's time zone.
* **pint units** are their conversion factors.
* **Crash points**: file writers are lists of effects; a crash is any prefix.
* **Texts** are ASCII.

## 4. What is modelled

| source | model | not modelled |
|---|---|---|
| `utils/envi_utils.py`, `image_objects/envi/*` | `M_Envi.v` | `np.fromfile` on devices; numpy memory order other than C |
| `utils/image_utils/image_chipper.py` | `M_Chipper.v` | PIL's encoding of the chips written |
| `utils/image_utils/image_utils.py`, `image_registration.py`, `image_mask_utils.py` | `M_Image.v`, `M_ImageR.v` | griddata interpolation inside `grid_warp_image_band`, `resize_image` |
| `spectral/spectral_image_processing_1d.py`, `_2d.py`, `utils/spectral_utils.py` | `M_Spectral.v` | `compute_image_cube_pca` (sklearn) |
| `spectral/spectrum.py` | `M_Spectrum.v` | plotting; `with_units=True` results (pint arrays) |
| `spectral/spectrum_factories/*` | `M_TextFiles.v` | the network downloads of the USGS factory's callers |
| `utils/file_utils.py`, `csv_utils.py`, `string_utils.py`, `numpy_and_array_utils.py` | `M_TextFiles.v` | encodings other than ASCII |
| `utils/pix4d_utils.py`, EO file loading | `M_NavFiles.v` | the projection file (pyproj) |
| `photogrammetry/nav/*` | `M_Nav.v` | reading the binary SBET file (numpy.fromfile with a dtype) |
| `utils/time_utils.py`, `micasense_image.py` | `M_Time.v` | EXIF parsing itself |
| `utils/photogrammetry_utils.py`, `pinhole_camera.py`, `fixtured_camera.py`, `ideal_pinhole_fpa_local_utm_point_calc.py` | `M_Photo.v` | pint's unit parsing |
| `opencv_point_calc.py`, `pix4d_point_calc.py`, `rpc_point_calc.py`, `geotiff_point_calc.py` | `M_Cameras.v` | reading the parameters from a TIFF with gdal |
| `abstract_earth_overhead_point_calc.py` | `M_PointCalc.v` | mixed ranks of the three coordinate arrays |
| `photogrammetry/dem/*`, `igm_point_calc.py`, `earth_overhead_sensor_model.py` | `M_Dem.v` | `GeotiffDem.get_mean_alt`'s numeric stability |
| `photogrammetry/ortho_tools.py`, `utils/geom_utils.py`, `abstract_image.py`, `abstract_image_metadata.py` | `M_Ortho.v` | writing the GeoTIFF; `map_coordinates` itself is an arbitrary function |
| `earth_overhead/geotiff/*`, `physical_camera/*`, `igm/igm_image.py`, `micasense/*` | `M_Objects.v` | GDAL drivers (files are values), `gdalwarp` based reprojection, tiling and compression |
| `utils/physical_camera_simulator.py`, constructors of `ideal_pinhole_fpa_local_utm_point_calc.py`, `proj_utils.py:28-37`, `photogrammetry_utils.py:24-34`, `create_igm_image` | `M_Sim.v` | `pyproj`, the `utm` package (contract), `map_coordinates` (arbitrary function) |
| `neural_net_model_scoring/keras_image_scoring.py`, `neural_net_model_training/keras_model_training.py` | `M_Scoring.v` | keras itself (contracts), `load_*_model`, the TensorFlow session set-up |
| `image_registration.py` image_mmi | `M_Mmi.v` | rounding in the bin numbers |
| RPC tags, stereo and ENVI image objects, Pix4D file discovery, navigation loading | `M_Loaders.v` | GDAL, PDAL and pyproj themselves |
| ortho_tools.py (warping, returned image object and file), image_utils.py (grid_warp_image_band, resize_image, gdal_grid_image_band) | `M_Warp.v` | scikit-image, PIL and GDAL themselves |
| photogrammetry/dem (object state: abstract_dem.py, geotiff_dem.py, constant_elevation_dem.py, dem_factory.py), geotiff_image.py (gdalwarp_geotiff_image) | `M_DemState.v` | GDAL itself; DemFactory.constant_elevation |
| floating-point versions of image_utils.py (normalize_grayscale_image, blend_images), time_utils.py, nav linear interpolation, spectral_image_processing_1d.py (mean, demean, sam) | `M_Float.v` | overflow; masks; all other functions are in exact arithmetic |
| integer-typed image_utils.py normalize_grayscale_image, spectral_image_processing_1d.py sam | `M_IntArr.v` | 64-bit overflow |
| file_utils.py make_dir_if_not_exists, get_all_folders_in_dir (directories, with other processes) | `M_Dirs.v` | permissions, links, full disks |
| memory sharing: spectral_utils.py, spectral_image_processing_2d.py (compute_image_cube_pca, flatten/unflatten pattern), abstract_image.py get_image_band | `M_Memory.v` | sklearn (parameter), dtype conversion |
| geotiff_point_calc.py in double precision (north-up) | `M_FloatGeo.v` | rotated geotransforms in doubles, overflow |
| photogrammetry_utils.py create_ground_grid, world_poly_to_geo_t in double precision | `M_FloatGrid.v` | overflow |
| apply_colormap_to_grayscale_image in double precision | `M_FloatColor.v` | float32 images, n_bins in doubles, overflow |
| ENVI files as bytes, killed writes (envi_utils.py) | `M_EnviBytes.v` | non-ASCII headers, float16 and complex128 values, reordered disk writes |
| Pixel order, band changes and repetition for the detectors (M_Spectral.v) | `Spec_Invariance.v` | rounding |
| Interrupted writers (chips, list files), files cut short (EO) | `M_Interrupted.v` | reordered disk writes |
| Orthorectification of GeoTIFF objects, repeated | `M_Reortho.v` | other projections than the image's own, DEMs |

Not modelled at all, because their behaviour is that of an external library (training, drawing, file
drivers): `image_recognition/neural_net_model_training`, plotting code, `digital_globe`, gdal file drivers.

## 5. Properties: what is modelled and how it is proved

- **C01 ENVI data-type codes are a faithful encoding of numpy dtypes** (proved, 7 theorems). Model and method: finite enumeration of numpy dtypes, the code table as an association list; case analysis; the writer as a list of file effects cut at any point. Round trip, injectivity, rejection and the partial-write crash point are proved for all dtypes. The standard's codes are proved for all non-complex types; C01_complex_code_refuted shows that complex data is written with a code of another precision.
- **C02 ENVI BIL image write/read round trip** (proved, 4 theorems). Model and method: images as rows of pixels, the file as a flat list; index arithmetic and induction over rows. For all shapes and contents; the raw file size is exact.
- **C03 ENVI interleaves other than BIL** (partial, 3 theorems). Model and method: the same reader and writer, branch for any interleave other than bil. The property is false of the code: C03_other_interleave_refuted. The exact behaviour (silent zeros on write and on read) is proved for every other interleave.
- **C04 ENVI header write/read round trip** (proved, 3 theorems). Model and method: header texts, the reader as a fuelled loop over the remaining text; induction over the entries of a dictionary. Round trip proved for all dictionaries of clean keys and values; C04_bracket_text_refuted shows that a bracketed text loses its closing brace.
- **C05 ENVI header reading terminates** (partial, 4 theorems). Model and method: same loop; the remaining text gets shorter, or the state repeats for every fuel. False of the code: C05_unclosed_brace_diverges_refuted. C05_read_header_terminates proves termination for every text whose braces are closed, and C05_diverges_only that entries with an unclosed brace are the only cause of divergence, for every text.
- **C06 ENVI header discovery** (proved, 5 theorems). Model and method: a file system as a predicate on names; decision rule by cases. Discovery rule proved for both readers; C06_readers_agree_refuted shows that the two readers prefer different headers when both exist.
- **C07 Chipping a whole image covers every pixel** (proved, 3 theorems). Model and method: integer arithmetic of arange, clamp and unique; coverage by induction over the steps. Coverage, order, bounds and overlap for all sizes with 0 <= overlap < chip <= image.
- **C08 Every chip is an exact sub-image** (proved, 7 theorems). Model and method: Python slices of nested lists, characterised by nth. Exactness proved for all images, corners and band selections with chip <= image; a larger chip is rejected unless the image has one row, where C08_one_row_image_replicated_refuted shows silent replication.
- **C09 Chipping by centers** (proved, 4 theorems). Model and method: truncation toward zero on integers. Position of every chip proved for both parities; C09_odd_chip_not_centered_refuted shows that odd chips away from the origin are not centred.
- **C10 Chip files never overwrite one another** (proved, 6 theorems). Model and method: decimal printing with zero padding, shown injective. Distinct names proved for all chip counts; names given by the caller can collide, and one-band chips cannot be written at all (C10_one_band_chips_not_writable_refuted).
- **C11 Detection image is the pixelwise maximum of the chip scores** (proved, 6 theorems). Model and method: a fold over the chips in score order; maximum invariant; any permutation that sorts. For every total order of scores, argsort with any tie-breaking, all chip sets with non-negative corners. C11_negative_score_lowers_background shows why monotonicity needs non-negative scores.
- **C12 Band flatten/unflatten** (proved, 6 theorems). Model and method: list arithmetic of reshape. Scale factor restricted to positive integers for the pixel grid (exact arithmetic).
- **C13 Grayscale normalisation** (proved, 3 theorems). Model and method: exact reals; minimum and maximum of a list. Exact real arithmetic; the constant image yields NaN, as stated.
- **C14 Colour mapping** (partial, 20 theorems). Model and method: exact reals, 8-bit wrap of the bin number. False of the code for palettes of more than 129 colours (C14_long_palette_black_refuted) and, in discrete mode, on one bin edge; proved for 2 to 129 colours, and the exact colour for every number of colours (C14_any_palette_exact); the cast to uint8 is modelled (C14_uint8_colours).
- **C15 RGB mask search** (proved, 4 theorems). Model and method: list filter with positions. RGB and RGBA images; colorutils.hex_to_rgb is a parameter.
- **C16 Demeaning** (proved, 6 theorems). Model and method: bigsum over samples, exact reals. Exact real arithmetic; image data as functions on (sample, band).
- **C17 Scene covariance** (proved, 5 theorems). Model and method: bigsum algebra, sum of squares. Exact real arithmetic.
- **C18 RX anomaly score** (proved, 11 theorems). Model and method: quadratic forms; the inverse is a contract hypothesis. numpy.linalg.inv is a parameter whose results are inverses. Also proved: affine invariance and the sum of the scores. One-band images raise in default mode (C18_one_band_default_raises).
- **C19 ACE detection score** (proved, 8 theorems). Model and method: Cauchy-Schwarz for positive semidefinite forms. numpy.linalg.inv is a parameter; exact real arithmetic.
- **C20 Spectral angle mapper** (proved, 6 theorems). Model and method: Cauchy-Schwarz. The score is the cosine; exact real arithmetic.
- **C21 2-D spectral operations are the 1-D operations pixel by pixel** (proved, 19 theorems). Model and method: reshaping between cubes and lists of pixels. All detectors; C21_cov_eq_matrix_default_mask_raises is a finding (None masks are flattened unconditionally). compute_image_cube_pca (sklearn) is not modelled.
- **C22 Covariance equalisation** (proved, 4 theorems). Model and method: matrix algebra; square roots as contract hypotheses. The fractional matrix powers are parameters assumed to be a symmetric square root and inverse square root of the two covariances, as the property says.
- **C23 Spectrum reading does not alter the stored data** (proved, 8 theorems). Model and method: a heap of arrays, all histories of calls. Float arrays, with_units=False readers; heap model with object identity. Wavelength arrays are handed out by reference (C23_wavelengths_are_shared).
- **C24 Spectral resampling** (proved, 9 theorems). Model and method: np.interp and np.trapz defined concretely; weighted mean. np.interp and np.trapz modelled concretely over exact reals. Findings: the wavelength units are lost; one NaN poisons every band.
- **C25 Orientation matrices are rotations** (proved, 2 theorems). Model and method: 3x3 matrices, trigonometric ring identities. All six orders; exact real sine and cosine.
- **C26 Omega/phi/kappa recovery** (proved, 3 theorems). Model and method: asin, acos and atan of the entries, by cases of sign. Exact real arithmetic; with rounding, gimbal lock is a neighbourhood of |m31|=1.
- **C27 Boresight solution is usable by the fixtured camera** (partial, 2 theorems). Model and method: matrix algebra over all rotations. False of the code: C27_refuted. C27_exact gives the exact condition (rough and ideal commute) for every pair of rotations and setter history.
- **C28 Ortho ground grid and geotransform agree** (partial, 4 theorems). Model and method: closed form of both grids. False of the code: C28_refuted. C28_grid proves the grid points exactly, C28_offset the exact misplacement of every pixel centre; it vanishes only for an empty extent.
- **C29 Pinhole projection depends only on the viewing ray** (proved, 7 theorems). Model and method: projective identity on the ray. One point at a time; C35 covers arrays. Exact real arithmetic.
- **C30 Fixtured camera composition** (proved, 3 theorems). Model and method: fold over all setter histories. For every history of setter calls.
- **C31 OpenCV camera model** (proved, 6 theorems). Model and method: fold over initialisations and real algebra. For every history of initialisations, one point at a time. Exact real arithmetic.
- **C32 Pix4D camera model** (partial, 7 theorems). Model and method: real algebra; dictionary lookup. Proved except the third coefficient, which is false of the code: C32_third_coefficient_refuted; C32_third_coefficient_iff is the exact condition.
- **C33 RPC polynomial conforms to RPC00B** (partial, 5 theorems). Model and method: ring identity against a separate RPC00B polynomial. False of the code: C33_refuted. C33_exact gives the exact deviation for every coefficient vector and point.
- **C34 Geotiff pixel/world round trip** (proved, 3 theorems). Model and method: field identity under the contract of gdal.InvGeoTransform. For every gdal.InvGeoTransform meeting its contract (an invertibility hypothesis shown satisfiable).
- **C35 Coordinate conversion is pointwise and shape preserving** (proved, 4 theorems). Model and method: shapes as an inductive type of numpy ranks; sensor and transform arbitrary pointwise functions. For every sensor and transform acting on points one by one (contract hypotheses, shown satisfiable). Mixed ranks are not modelled.
- **C36 Iterative pixel-to-world solver** (partial, 14 theorems). Model and method: fuelled Newton loop over an arbitrary projection; affine instance solved in one step. C36_stops and C36_affine prove the first two parts in exact arithmetic; C36_converges and C36_converges_eventually prove convergence, with rate and position error, for every sensor close to an affine one, C36_default_steps the step sizes chosen, C36_own_steps convergence with them, C36_pinhole for ideal pinhole cameras of any orientation with explicit bounds; the last is false of the code: C36_refuted, C36_zero_slope.
- **C37 Ray casting to a DEM** (partial, 10 theorems). Model and method: samples along the ray; backwards search equals first crossing; intersection of two segments. C37_first_crossing proves it for every DEM and sensor; false of the code for flat DEMs and vertical rays: C37_flat_refuted, C37_vertical.
- **C38 IGM lookup** (partial, 9 theorems). Model and method: weights of the six nearest nodes; convexity and error bound. C38_pixel_exact, C38_range, C38_inside and C38_node (with the exact error bound of the inverse distance weighting at a node); exactness at a node and a numeric altitude are false of the code: C38_node_refuted, C38_altitude_refuted, C38_altitude_zero. scipy's tree is a contract hypothesis (six_nearest), shown satisfiable by a sorting implementation.
- **C39 Sensor model band dispatch** (proved, 6 theorems). Model and method: all histories over a heap of calculators. For all histories of add, update, set list and set projection; negative band numbers and failed updates included.
- **C40 Constant DEM** (proved, 2 theorems). Model and method: map over shapes. All shapes.
- **C41 Geotiff DEM nearest lookup** (proved, 9 theorems). Model and method: truncation and clipping on reals and integers. Exact arithmetic; the world to pixel map is arbitrary (C34, C35 cover it). The documented exceptions are C41_integer_nodata and C41_single_row.
- **C42 Geotiff DEM bilinear lookup** (partial, 7 theorems). Model and method: weighted mean with explicit weights. C42_between proves the bounds; C42_fails_iff, C42_weights and C42_reversed give the exact behaviour. The last two parts are false of the code: C42_at_pixel_refuted, C42_closer_heavier_refuted.
- **C43 Navigation interpolation** (proved, 7 theorems). Model and method: sorted list search and linear interpolation. All channels of both classes, whole records, and the path from an EO file. Exact real arithmetic. One record answers NaN at its own time (C43_single_record_refuted).
- **C44 Heading interpolation across north** (partial, 2 theorems). Model and method: real case analysis of the two arcs. False of the code: C44_shorter_arc_refuted. C44_shorter_arc_iff gives the exact condition for every pair of headings.
- **C45 EO file loading keeps records aligned** (partial, 3 theorems). Model and method: line by line fold with exceptions. False of the code: C45_aligned_refuted. C45_columns_exact gives the exact columns for every file; alignment is proved for every file whose bad lines already fail in the first field.
- **C46 UTC/GPS time conversion** (proved, 11 theorems). Model and method: leap second table, bisect shown to count. The time zone of the process is a parameter. The documented violations are C46_round_trip_refuted, C46_before_1980, C46_increasing_refuted, C46_other_zone_refuted and C46_zone_of_1970_shifts.
- **C47 GPS week/second decomposition** (proved, 2 theorems). Model and method: floor, uniqueness of the decomposition. In every time zone; exact real arithmetic.
- **C48 Micasense GPS tag decoding** (partial, 4 theorems). Model and method: rationals of EXIF tags. False of the code: C48_decode_refuted. C48_decode_iff gives the exact condition.
- **C49 Micasense capture time** (partial, 6 theorems). Model and method: digit strings; calendar shown equal to day counting. False of the code: C49_leading_zero_refuted. C49_subsecond_iff gives the exact condition; C49_capture_time proves the whole capture time for tags without leading zero, against a day-counting calendar; C49_invalid_date_raises covers non-existent dates.
- **C50 Image object state** (proved, 7 theorems). Model and method: all histories over heaps of images and arrays. All histories over any number of image objects and shared arrays. Simplified: data of another shape than the band raises (numpy broadcasting is not modelled).
- **C51 Ortho pixel sampling window** (partial, 5 theorems). Model and method: window index arithmetic with Python slices. C51_mean proves it for windows that do not start left of or above the image; C51_border and C51_wraps describe the others exactly, C51_refuted shows the claim is false there.
- **C52 DEM obstruction test** (partial, 8 theorems). Model and method: fold over the marching steps. C52_exact says exactly what is computed. The claim is false: C52_missed_refuted, C52_false_alarm_refuted, C52_antidiagonal. C52_symmetric_partial: for terrain symmetric about the ground point a marked pixel is obstructed.
- **C53 Image extent uses exactly the border pixels** (proved, 3 theorems). Model and method: border enumeration; hull contract. shapely's simplified convex hull is a contract hypothesis (outlines), shown satisfiable.
- **C54 Alpha masking** (proved, 4 theorems). Model and method: pointwise map. The documented exceptions are C54_nan_nodata and C54_int8_refuted.
- **C55 Newline cleanup and snake case** (proved, 8 theorems). Model and method: ASCII strings, induction. C55_windows_refuted is the documented violation for CR LF systems. str.lower and re.sub are modelled for ASCII.
- **C56 Text list file round trip** (proved, 5 theorems). Model and method: join and split. The stated exceptions are C56_last_empty_lost, C56_empty_list_raises and C56_round_trip_refuted.
- **C57 Array helpers** (proved, 5 theorems). Model and method: list transposes and filters. remove_all is proved for every element type with a boolean equality; NaN removes nothing (C57_remove_nan).
- **C58 CSV columns** (proved, 5 theorems). Model and method: csv.reader state machine; table transposition. csv.reader is modelled as a state machine with the default dialect and any delimiter.
- **C59 Pix4D parameter files** (proved, 12 theorems). Model and method: line lists and block indices; folds over dictionaries. The documented violation is C59_internal_complete_refuted; C59_internal_exact gives the exact content for every file. Findings: camera 0 gets the last camera's parameters and r_matrix is stored for the last image only.
- **C60 Bounding geometry** (proved, 2 theorems). Model and method: envelope contract. shapely's envelope is a contract hypothesis, shown satisfiable. Degenerate envelopes (points, segments) are represented by their bounds.
- **C61 Truncated ENVI raw data are rejected** (partial, 4 theorems). Model and method: reshape arithmetic on the length of the data. C61_complete and C61_truncated say exactly, for every length of data, what is read and what is rejected; the exception makes the claim false of the code: C61_truncated_refuted.
- **C62 Mutual information of two images** (proved, 5 theorems). Model and method: entropy sums over finite histograms. Histograms are given with the contract that the joint histogram has the two histograms as marginals.
- **C63 Uniform image creation** (proved, 1 theorems). Model and method: constant arrays.
- **C64 Image blending** (proved, 2 theorems). Model and method: pointwise convex combination. Exact real arithmetic.
- **C65 ASCII spectrum files** (proved, 11 theorems). Model and method: line filters and column reads, float a parameter. float(text) is a parameter. C65_usgs_lengths_not_checked is a finding.
- **C66 Directory listing and paths** (proved, 8 theorems). Model and method: list filters on names. The documented violations are C66_overlapping_extensions_refuted and C66_inner_dot_refuted. os.listdir and glob are modelled as an arbitrary list of names.
- **C67 Pixel counts of an extent** (proved, 1 theorems). Model and method: truncated division of the extent. Exact real arithmetic.
- **C68 Geotiff world extent** (partial, 2 theorems). Model and method: corners of an affine image. C68_extent proves it for geotransforms without rotation; with rotation it is false of the code: C68_rotated_refuted.
- **C69 Orthorectified image contents** (partial, 8 theorems). Model and method: cell by cell contents of the ortho; sampler arbitrary. C69_coregistered, C69_separate and C69_outside say exactly what every cell holds; the claim is false at the border and outside: C69_border_refuted, C69_outside_refuted; C69_errors. scipy's map_coordinates is an arbitrary function (contract zero_outside where used).
- **C70 Size and sampling of the full ortho** (partial, 7 theorems). Model and method: composition of extent, size and ortho. C70_size, C70_full and C70_small_extent prove the first part; the default sample distance is C70_default_gsd, false as the pixel pitch: C70_gsd_refuted.
- **C71 Ground positions of pixels lie on the terrain** (partial, 4 theorems). Model and method: two-step terrain lookup; witness terrain. C71_constant_dem and C71_on_terrain_partial; C71_error_bound bounds the error on terrain of bounded slope; false in general: C71_terrain_refuted.
- **C72 GeoTIFF write and read** (partial, 13 theorems). Model and method: model of the image object, the file system and the writer as effects on it; round trip through open. C72_round_trip, C72_copy, C72_memory_is_written, C72_memory_dataset; false for fractional and NaN no-data values and for writing an unloaded image to its own file: C72_fractional_nodata_refuted, C72_nan_nodata, C72_own_file_refuted, with C72_nodata_truncated as the exact statement; C72_data_too_large, C72_missing_bands, C72_cannot_create, C72_closed for the failures. GDAL's type conversion is an arbitrary function; the round trip assumes it keeps values of the file's own type.
- **C73 Reading bands from disk** (partial, 12 theorems). Model and method: the readers of the image classes on the file system model. C73_geotiff_band, C73_all_is_each, C73_numpy_image, C73_micasense_band, C73_micasense_all, C73_camera_all, C73_camera_memory; a band of a camera image on disk is refuted: C73_camera_band_refuted.
- **C74 Micasense image factory** (proved, 8 theorems). Model and method: text functions on file names; dispatch over the calculators. As stated, including the documented exception (C74_two_digits_refuted); C74_opencv_unoriented adds that calculators from OpenCV parameters answer nothing until oriented, and C74_opencv_oriented that they then use every parameter.
- **C75 Micasense image from an array** (proved, 6 theorems). Model and method: induction over the bands written; last write wins. As stated, including the documented exception (C75_repeated_name_refuted). uuid4 is an arbitrary stream of names.
- **C76 Simulated camera orientation** (partial, 6 theorems). Model and method: state machine of the simulator, invariant over histories; rotation algebra from C25-C27 and the pinhole theorem C29. C76_camera is the exact statement over all histories, with C76_nudge, C76_gimbal_image and C76_unknown_order for the exceptions; the documented units are refuted: C76_units_refuted, C76_units_ignored.
- **C77 Simulated image content** (partial, 6 theorems). Model and method: same histories; solver theorem C36, exact solution of the affine (level) case. C77_pixels, C77_accuracy and C77_level over all histories, C77_tilted for tilted cameras whose view of the ground is not too bent (explicit bounds in Spec_Perspective); for projections other than the geotiff's it is refuted: C77_projection_refuted. scipy's map_coordinates is an arbitrary function; for cameras outside the bounds of C77_tilted convergence is not claimed (C77_accuracy says what holds when it stops early).
- **C78 Local UTM projection** (proved, 3 theorems). Model and method: contract of the utm package as a specification; case analysis over the letters. C78_zone, C78_out_of_range, C78_camera. The utm package is a contract (shown satisfiable), pyproj's transform an arbitrary function.
- **C79 Shifting points by metres** (partial, 4 theorems). Model and method: algebra of the two transforms; analysis of Web Mercator (mean value theorem). C79_group and C79_degrees; the distances are refuted: C79_ground (exact for eastward shifts) and C79_meters_refuted. Web Mercator is EPSG 3857's definition; pyproj is assumed to compute it exactly.
- **C80 IGM image of an overhead image** (partial, 4 theorems). Model and method: composition of the ray caster C37 and the IGM C38. C80_positions, C80_terrain, C80_data; the default is refuted: C80_default_refuted.
- **C81 Scoring an image chip by chip** (partial, 8 theorems). Model and method: the chips of C07; induction over the chip loop; numpy's squeeze over nested arrays. C81_scores_by_corner, C81_class_scores, C81_one_chip, C81_one_class, C81_progress and C81_errors with a ledger; without one (the default) it is refuted: C81_no_ledger_refuted. scipy's imresize and the model are arbitrary functions with a shape contract (C81_contracts).
- **C82 Labels file and training run** (proved, 6 theorems). Model and method: insertion sort is the sorted permutation; positions counted by smaller names; file round trip C56. As stated, including the documented exceptions (C82_missing_class_refuted, C82_other_numbering_refuted, C82_training_errors). keras' numbering of directories and its epoch loop are the model's contract with keras.
- **C83 Classification head and frozen layers** (proved, 6 theorems). Model and method: algebra of softmax and means; permutation invariance of sums. As stated. Dense, GlobalAveragePooling2D, Dropout at prediction time and softmax are given their documented meaning over the reals.
- **C84 Mutual information of two images** (proved, 9 theorems). Model and method: both histograms as counts of one list of bin numbers; marginals; C62's bounds; affine invariance of the bins. As stated, over exact reals. numpy's histogram and histogram2d are modelled from their documented algorithm (default range, truncated scaled value, searchsorted on the edges); they are proved to count the same bins.
- **C85 RPC point calculator from a file** (proved, 4 theorems). Model and method: equivalence of the bind chain with the table of tags; case analysis for the errors. As stated; GDAL's RPC metadata and float(str) are parameters.
- **C86 Stereo and ENVI image objects read their own file** (proved, 8 theorems). Model and method: C02 and C06 for the header, contract hypothesis for GDAL. Proved for a directory without a header of the shortened name; C86_envi_stale_header_refuted shows that the qualification is needed. GDAL's reading of the file is a hypothesis (bands_of_cube).
- **C87 Pix4D projection matrices and parameter files** (proved, 7 theorems). Model and method: filter by ending; endings pairwise not suffixes of each other; C59 for the contents. As stated, with the three exceptions refuted by name. The conversion of the projection text is not modelled.
- **C88 Navigation objects from SBET and EO files** (proved, 4 theorems). Model and method: distinct keys under the snake case conversion by computation over the table of dimensions, then C43. As stated, with the EO record length exception. PDAL's result is a parameter.
- **C89 Orthorectification by warping** (proved, 10 theorems). Model and method: ground grid of C28, mapM over the bands, case analysis on the interpolation names. As stated; scikit-image's warp and PIL's resize are parameters with contracts (shown satisfiable by C89_contract_met, C89_resize_met).
- **C90 The image object and file an orthorectification returns** (proved, 9 theorems). Model and method: stacking and unstacking of bands; C54 for the mask; C72 for the file; C28 for the placement. The object, file and error statements are proved; that cells without data are transparent is refuted (C90_alpha_refuted, with the exact condition in C90_alpha), and the placement is off as C90_placement states.
- **C91 Digital elevation model objects over histories of calls** (proved, 16 theorems). Model and method: invariant over the history (last value set by each kind of call; composed blanking of the data); unfolding for conversions with the file system as a function. As stated, including the exceptions; gdal.Warp is a parameter (which files it gives is GDAL's). Conversions are proved for images open on a file, the only ones a DEM can load.
- **C92 Normalisation in floating-point arithmetic** (proved, 6 theorems). Model and method: monotonicity of rounding and floats being fixed by it; concrete roundings for the counterexamples. As stated, with the exceptions as theorems. Rounding is Flocq's round to nearest even with a least exponent; overflow to infinity is not modelled.
- **C93 GPS time and week in doubles** (proved, 3 theorems). Model and method: differences and fractional parts of doubles are doubles; a quotient below a whole number does not round up to it. As stated.
- **C94 Navigation interpolation in doubles** (proved, 4 theorems). Model and method: relative errors of each operation composed, with underflow terms bounded. As stated; no overflow.
- **C95 Blending in floating-point arithmetic** (proved, 4 theorems). Model and method: as C94; concrete rounding for the counterexample. As stated; no overflow.
- **C96 Spectral angle in doubles** (proved, 3 theorems). Model and method: induction over summation trees, Cauchy-Schwarz, composed relative errors; integer sums exact in every tree. As stated; numpy's sums are a parameter constrained only to be some summation tree of rounded or fused terms, and both counterexamples hold for all of them.
- **C97 Spectral mean in doubles** (proved, 3 theorems). Model and method: as C96. As stated (without a mask); numpy's sum is a parameter constrained only to be some summation tree.
- **C98 Images of integer types** (proved, 8 theorems). Model and method: modular arithmetic, comparison with the exact models of C13 and C20. As stated; float rounding after the integer arithmetic is not part of this property (C92, C96).
- **C99 Making and listing directories** (proved, 5 theorems). Model and method: induction on the depth of the path; the environment is an arbitrary function of the step and the file system, growth of the tree as invariant. As stated, with the exceptions as theorems. os.makedirs is modelled from the standard library as a sequence of stat and mkdir calls; no permissions, links or full disks.
- **C100 Images that share memory** (proved, 9 theorems). Model and method: arrays as buffer, offset, lengths and strides; address arithmetic, injectivity of addresses; fold over the elements for the overwritten image. As stated, with the exception as a theorem. numpy's rule for reshaping without a copy is modelled; sklearn's analysis is a parameter: its scores and what it leaves in its input are arbitrary functions. That the functions of the 1d module return new arrays is part of the model (on_flattened).
- **C101 GeoTIFF positions in double precision** (proved, 8 theorems). Model and method: every operation rounded (Flocq); relative errors of the seven operations collected per axis; the exception by computing the doubles. As stated, with the exception as a theorem. GDAL's inverse is modelled for geotransforms without rotation (its special case); no overflow; the magnitude of the pixel size is between 2^-400 and 2^400.
- **C102 Colour maps in double precision** (proved, 7 theorems). Model and method: every operation rounded (Flocq); node errors from the relative errors of the four operations, bins by the strict order of the nodes, the weight and the mix by C95; the exact map is piecewise linear with slope at most one per node, which carries the position error over to the colour; the exception by computing the doubles. As stated, with the exception as a theorem. Without n_bins; the image has the floating type of the arithmetic; no overflow; the range is at least 2^-400.
- **C103 ENVI files byte by byte** (proved, 13 theorems). Model and method: files as lists of bytes; values as integers and Flocq IEEE 754 numbers; encoding and decoding are inverse by induction on the bytes, and meet the specification (weighted sum of the bytes) in both orders; the layout follows from C02 by the constant size of the elements. As stated, with the exceptions as theorems. Headers are ASCII; the image has the machine's byte order (numpy arrays of the other order have no code and raise after the data are written, like C01).
- **C104 An ENVI write that is killed** (proved, 5 theorems). Model and method: the files a write creates, in order, cut at any byte; a text without a newline adds nothing to a header, so that a cut header is a prefix of its entries, by induction on the lines; the data part from C61 on the prefix of the bytes. As stated, with the exceptions as theorems. The two files are written in order and each file's bytes in order (a killed process; not a power failure that reorders blocks).
- **C105 Detectors and the arrangement of pixels and bands** (proved, 7 theorems). Model and method: sums are invariant under permutations (Permutation of the index list); for band changes the covariance becomes A C A^T, and the quadratic form of its inverse on transformed vectors is the old one; repetitions multiply the covariance by a positive factor, which cancels in ACE. As stated, in exact arithmetic; numpy.linalg.inv returns the inverse exactly when there is one (C105_ex_inv).
- **C106 Interrupted writers and files cut short** (proved, 7 theorems). Model and method: a text cut anywhere is complete lines and the beginning of the next, by induction; the fields of the beginning of a line are its first fields, the last perhaps cut; a file written later does not depend on what was there before, hence the second run. As stated, with the exceptions as theorems. Files are written one after the other and each from its beginning (a killed process, not a power failure that reorders blocks); imageio's encoding of a chip is an arbitrary function.
- **C107 Orthorectifying an orthorectified image** (proved, 8 theorems). Model and method: C69 (what a cell holds) and C90 (the object returned) composed with the inverse geotransform of C34; the generations by induction, each step being the one-pixel shift of a window equal to the whole image. As stated. scipy's map_coordinates of orders 0 (halves round up) and 1 enter through contracts shown satisfiable; the image's projection is the world projection; exact arithmetic.
- **C108 Interpolated navigation is a track** (proved, 7 theorems). Model and method: from C43 (an answer is the value of the piecewise linear curve): monotonicity by cases on the two segments, the rate by monotonicity of L t + v and L t - v, refinement because no record of the coarse table lies inside a segment of the fine one. As stated, in exact arithmetic (headings as plain numbers; their wrap around is C44). C94 bounds the rounding error of each answer.
- **C109 The chip grid is exactly predictable and the chips determine the image** (proved, 5 theorems). Model and method: the returned list is sorted without repetition, so it equals the explicit list once the members agree; the count is its length; C109_determined from coverage and exactness of C07. As stated. C07 and C08 give coverage and contents; here the corners themselves, their number and the converse.
- **C110 From an image to a map of detections** (proved, 3 theorems). Model and method: C81 (scores per corner), C109 (the corners) and C11 (maximum) composed; locality because a chip, its shape included, is determined by the pixels it shows, and everything after it is a function. As stated, over exact reals; the resizer and the model are arbitrary functions with the shape contracts of C81, shown satisfiable. One-chip images and one-class models fail as in C81.
- **C111 Images and orthos depend only on relative geometry** (proved, 9 theorems). Model and method: the ground grid, the geotransform, the bounds, the default gsd and the search steps commute with the change term by term; the cameras because only M (p - c) enters, up to a factor cancelled by the perspective division. As stated, over exact reals. Shapely's hull is an argument required to commute with the change (its simplification tolerance of 0.001 is a fixed length, so this is a real restriction on changes of unit; a shift needs none). C111_obstruction_unit_refuted: the fixed 5 m step of the search makes the marking depend on the unit.
- **C112 An orthorectified simulated image shows the ground it was simulated from** (proved, 2 theorems). Model and method: from C77 every pixel of the simulated image is the geotiff's content at a ground point seen in that pixel (exactly, level; within 0.01 pixel, tilted); C69 and the nearest contract give each ortho cell one pixel within half a pixel of the cell's own location; for a level camera pixel distance is ground distance times focal length / altitude because the rotation preserves lengths. As stated, over exact reals. Composes C76, C77 and C69: scipy's nearest sampling is an argument whose contract (the pixel nearest to the location, halves up) is shown satisfiable; the geotiff sampler of the simulator is arbitrary. C112_tilted has the bending and range conditions of C77_tilted as hypotheses (met by C77_tilted_met).
- **C113 Orthos of parts of a region fit together** (proved, 7 theorems). Model and method: by C69 the value of a cell is a function of the cell's centre and the band; the centres of a part's cells are the whole's by algebra, and C08 gives the chips. As stated, over exact reals (in doubles the cell centres of part and whole agree only up to rounding). C113_geo_transform gives the exact displacement and C113_geo_transform_refuted a case of 0.4 pixel.
- **C114 Ortho ground grid in double precision** (proved, 4 theorems). Model and method: M_FloatGrid rounds every operation in the order of evaluation; the error is accumulated as absolute errors (a fraction of counts never underflows, sums of doubles have no underflow error), order from monotonicity of rounding. As stated, for IEEE round-to-nearest-even with gradual underflow (Flocq's FLT format); overflow is not modelled. C114_met: a UTM window, where the error is below ten nanometres.
- **C115 Scoring an image in parts** (proved, 5 theorems). Model and method: Spec_TiledScores crops an image; the per-pixel formulas of C21 give the parts, and the pooled moments are algebra on sums split at the row boundary. As stated, over exact reals; the last sentence is C115_own_statistics_refuted (an RX score of a pixel under its part's own statistics differs from its score in the whole). The whole's statistics exclude one-band images, where the code's inverse of a 0-d covariance raises (C18).

## 6. Testing the theorems against wrong programs

`seeded/LOG.jsonl` has one line per seeded bug: the definition edited, the edit, the claim it breaks, the
theorems that failed and those tightened. A mutation is run by copying the development outside `/verif`,
editing one definition of `M_*.v`, and recompiling everything that depends on it; a proof that no longer
compiles is replaced by an admission so that the independent theorems after it are still tried. A theorem
counts as failed if its own proof fails or it depends on a lemma whose proof failed. A mutation that kills no
theorem of a claim it falsifies leads to a new or stronger theorem in `/verif`.
