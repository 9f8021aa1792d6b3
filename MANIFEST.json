{
 "claims": [
  {
   "property": "C01",
   "status": "proved",
   "theorems": [
    "c01_flip_horizontal_mirrors",
    "c01_flip_vertical_mirrors",
    "c01_flip_horizontal_involution",
    "c01_flip_vertical_involution",
    "c01_flip_mut_agrees"
   ],
   "note": "all images, all pixel types"
  },
  {
   "property": "C02",
   "status": "proved",
   "theorems": [
    "c02_rotate90_turns",
    "c02_rotate270_turns",
    "c02_rotate180_turns",
    "c02_rotate90_four_times",
    "c02_rotate270_undoes_90",
    "c02_rotate90_undoes_270",
    "c02_rotate90_twice_is_180",
    "c02_rotate180_involution"
   ],
   "note": "all images, all pixel types"
  },
  {
   "property": "C03",
   "status": "proved",
   "theorems": [
    "c03_translate_replicates_border"
   ],
   "note": "hypotheses: non-empty, dimensions below 2^31, the i32 subtraction y - ty does not overflow"
  },
  {
   "property": "C04",
   "status": "proved",
   "theorems": [
    "c04_crop_window"
   ],
   "note": "debug-build overflow semantics for the u32 additions"
  },
  {
   "property": "C05",
   "status": "partial",
   "theorems": [
    "c05_replace_refuted",
    "c05_replace_partial"
   ],
   "note": "refuted: last row and column of bottom are never written (c05_replace_refuted); the rest of the property is proved in c05_replace_partial"
  },
  {
   "property": "C06",
   "status": "partial",
   "theorems": [
    "c06_overlay_refuted",
    "c06_overlay_ignores_top",
    "c06_overlay_partial"
   ],
   "note": "refuted: overlay never reads top (c06_overlay_refuted, c06_overlay_ignores_top); frame, size and panic behaviour proved in c06_overlay_partial"
  },
  {
   "property": "C07",
   "status": "proved",
   "theorems": [
    "c07_map_subpixels_parallel",
    "c07_map_subpixels_mut_parallel",
    "c07_map_subpixels_mut_agrees",
    "c07_map_pixels_parallel",
    "c07_map_enumerated_pixels_parallel",
    "c07_map_enumerated_pixels_mut_parallel",
    "c07_map_pixels_mut_parallel",
    "c07_map_enumerated_pixels_pointwise",
    "c07_map_pixels_pointwise",
    "c07_crop_parallel",
    "c07_rows_parallel",
    "c07_warp_rows_parallel",
    "c07_complete_schedules_exist"
   ],
   "note": "interleavings of load/store steps for in-place passes; slot writes for indexed collect; arbitrary split trees for flat_map collect"
  },
  {
   "property": "C08",
   "status": "partial",
   "theorems": [
    "c08_map_pixels2_refuted",
    "c08_map_pixels2_partial"
   ],
   "note": "refuted: mismatched dimensions do not always panic (c08_map_pixels2_refuted); pointwise law and exact panic condition in c08_map_pixels2_partial"
  },
  {
   "property": "C09",
   "status": "proved",
   "theorems": [
    "c09_find_iff_connected",
    "c09_num_trees",
    "c09_trees_partition",
    "c09_root_canonical",
    "c09_out_of_range_panics"
   ],
   "note": "arbitrary histories; unsafe accesses modelled as checked accesses"
  },
  {
   "property": "C10",
   "status": "proved",
   "theorems": [
    "c10_components"
   ],
   "note": "arbitrary pixel type with decidable equality"
  },
  {
   "property": "C11",
   "status": "partial",
   "theorems": [
    "c11_no_panic_refuted",
    "c11_panic_condition_partial"
   ],
   "note": "refuted: a 1x1 foreground image panics (c11_no_panic_refuted); exact panic condition in c11_panic_condition_partial"
  },
  {
   "property": "C12",
   "status": "proved",
   "theorems": [
    "c12_integral_image",
    "c12_integral_squared_image",
    "c12_integral_image_release"
   ],
   "note": "any channel type and sum width large enough for the total; wrapping (release) variant proved without the size bound"
  },
  {
   "property": "C13",
   "status": "partial",
   "theorems": [
    "c13_no_overflow_refuted",
    "c13_rectangle_sum_partial",
    "c13_rectangle_sum_release"
   ],
   "note": "refuted: the intermediate a + b overflows although the rectangle sum fits (c13_no_overflow_refuted); exact when the total is below half the range (c13_rectangle_sum_partial), and modulo 2^n in wrapping arithmetic (c13_rectangle_sum_release)"
  },
  {
   "property": "C14",
   "status": "proved",
   "theorems": [
    "c14_row_running_sum",
    "c14_column_running_sum",
    "c14_window_sums",
    "c14_row_panics"
   ],
   "note": "both running sums, all paddings, panic condition for the row version"
  },
  {
   "property": "C15",
   "status": "partial",
   "theorems": [
    "c15_adaptive_refuted",
    "c15_adaptive_huge_radius_panics",
    "c15_adaptive_partial",
    "c15_adaptive_zero_radius"
   ],
   "note": "refuted: delta = i32::MIN and huge radii overflow (c15_adaptive_refuted); exact result for r < 2^31, delta >= i32::MIN + 256 and 255*w*h < 2^31 (c15_adaptive_partial)"
  },
  {
   "property": "C16",
   "status": "partial",
   "theorems": [
    "c16_threshold_refuted",
    "c16_threshold_partial"
   ],
   "note": "refuted: ToZero and ToZeroInverted are swapped with respect to their documentation (c16_threshold_refuted); the table up to that swap is c16_threshold_partial"
  },
  {
   "property": "C17",
   "status": "proved",
   "theorems": [
    "c17_stretch_contrast",
    "c17_stretch_monotone_and_bounded",
    "c17_stretch_panics"
   ],
   "note": "any channel count; alpha kept"
  },
  {
   "property": "C18",
   "status": "proved",
   "theorems": [
    "c18_equalize",
    "c18_histogram_only",
    "c18_empty"
   ],
   "note": "for every non-empty image below 2^32 pixels; also the distance of each level from 255 times its cumulative share"
  },
  {
   "property": "C19",
   "status": "proved",
   "theorems": [
    "c19_histogram",
    "c19_cumulative_histogram",
    "c19_prefix_sums",
    "c19_percentile",
    "c19_percentile_panics"
   ],
   "note": "any channel count for histograms; images below 2^32 pixels"
  },
  {
   "property": "C20",
   "status": "proved",
   "theorems": [
    "c20_distance_transform",
    "c20_nearest_exists"
   ],
   "note": "both norms; every image up to the documented size"
  },
  {
   "property": "C21",
   "status": "partial",
   "theorems": [
    "c21_refuted",
    "c21_euclid_partial"
   ],
   "note": "refuted only for sizes whose squared distances exceed 53 bits (c21_refuted, 2^27 + 2 columns); c21_euclid_partial: exact for every image up to 2^26 rows and columns, in f64 with rounded boundaries"
  },
  {
   "property": "C22",
   "status": "partial",
   "theorems": [
    "c22_blank_refuted",
    "c22_saturation_white",
    "c22_dilate_erode_partial"
   ],
   "note": "refuted: blank images with large k, and saturation at 255 (c22_blank_refuted, c22_saturation_white); exact ball statement below the saturation cap in c22_dilate_erode_partial"
  },
  {
   "property": "C23",
   "status": "proved",
   "theorems": [
    "c23_square",
    "c23_diamond",
    "c23_disk",
    "c23_from_image",
    "c23_from_image_panics",
    "c23_no_duplicates"
   ],
   "note": "all radii 0..255; from_image for every image below 512x512"
  },
  {
   "property": "C24",
   "status": "proved",
   "theorems": [
    "c24_grayscale_dilate",
    "c24_grayscale_erode",
    "c24_zero_width_panics"
   ],
   "note": "arbitrary offset list as mask; zero-width images panic (c24_zero_width_panics)"
  },
  {
   "property": "C25",
   "status": "proved",
   "theorems": [
    "c25_open_close",
    "c25_open_close_monotone",
    "c25_asymmetric_mask_counterexample"
   ],
   "note": "every mask symmetric about the origin; symmetry is necessary (c25_asymmetric_mask_counterexample)"
  },
  {
   "property": "C26",
   "status": "partial",
   "theorems": [
    "c26_median_refuted",
    "c26_median_partial",
    "c26_median_unique",
    "c26_median_empty",
    "c26_median_panics"
   ],
   "note": "refuted: (2rx+1)(2ry+1) overflows u32 for radii within the documented limits (c26_median_refuted); complete for windows below 2^31 pixels (c26_median_partial), with uniqueness and panic theorems"
  },
  {
   "property": "C27",
   "status": "proved",
   "theorems": [
    "c27_filter",
    "c27_filter_parallel",
    "c27_channel_mismatch_panics",
    "c27_filter_integer"
   ],
   "note": "any subpixel type, kernel type and operations (so also f32), any conversion f; integer corollary with the double sum; parallel version equal"
  },
  {
   "property": "C28",
   "status": "proved",
   "theorems": [
    "c28_horizontal",
    "c28_vertical"
   ],
   "note": "any kernel type and length; both code paths"
  },
  {
   "property": "C29",
   "status": "partial",
   "theorems": [
    "c29_separable_refuted",
    "c29_separable_two_passes",
    "c29_separable_partial"
   ],
   "note": "refuted: the horizontal pass is clamped before the vertical one (c29_separable_refuted); exact two-pass formula (c29_separable_two_passes) and equality when no clamping occurs (c29_separable_partial)"
  },
  {
   "property": "C30",
   "status": "proved",
   "theorems": [
    "c30_box_filter",
    "c30_box_filter_empty",
    "c30_huge_radius_panics"
   ],
   "note": "sizes for which the u32 running sums cannot overflow"
  },
  {
   "property": "C31",
   "status": "proved",
   "theorems": [
    "c31_bresenham_line",
    "c31_float_ends",
    "c31_any_float_connected"
   ],
   "note": "all integer end points with coordinates of magnitude at most 2^22 (the range where every f32 quantity of the iterator is exact); IEEE-754 single precision via Flocq; for fractional end points up to 32768 from the origin c31_float_ends: connected, no pixel more than 2.55 from the segment and no point of the segment more than 3.55 from a pixel; connected for any floats when it does not panic (c31_any_float_connected)"
  },
  {
   "property": "C32",
   "status": "proved",
   "theorems": [
    "c32_direction",
    "c32_drawing_direction"
   ],
   "note": "all finite f32 end points"
  },
  {
   "property": "C33",
   "status": "proved",
   "theorems": [
    "c33_draw_line_segment",
    "c33_draw_line_segment_any_float",
    "c33_huge_coordinate_panics"
   ],
   "note": "every f32 end point for which the iterator does not overflow, any per-pixel effect; huge coordinates panic (c33_huge_coordinate_panics)"
  },
  {
   "property": "C34",
   "status": "proved",
   "theorems": [
    "c34_filled_rect",
    "c34_filled_rect_empty_image",
    "c34_hollow_rect"
   ],
   "note": "filled: every rectangle within i32, any per-pixel effect; hollow: coordinates up to 2^22 because the outline goes through f32 lines, idempotent effects because corners are drawn twice; an empty image panics"
  },
  {
   "property": "C35",
   "status": "proved",
   "theorems": [
    "c35_hollow_circle",
    "c35_circle_half_pixel",
    "c35_circle_symmetric",
    "c35_circle_every_column",
    "c35_negative_radius",
    "c35_filled_circle",
    "c35_disc_bounds"
   ],
   "note": "exact set of pixels, plus its geometry (half-pixel bounds, symmetry, no gaps); filled circle likewise"
  },
  {
   "property": "C36",
   "status": "proved",
   "theorems": [
    "c36_flood_fill",
    "c36_outside_panics"
   ],
   "note": "every image smaller than 2^31-1 per side, any pixel equality that is symmetric and transitive"
  },
  {
   "property": "C37",
   "status": "partial",
   "theorems": [
    "c37_terminates_refuted",
    "c37_terminates_partial"
   ],
   "note": "refuted: filling with the colour already present can loop forever (c37_terminates_refuted, 2x2 uniform image); terminates whenever the colours differ (c37_terminates_partial, and c36_flood_fill gives the bound 3wh+3)"
  },
  {
   "property": "C38",
   "status": "proved",
   "theorems": [
    "c38_even_crossings",
    "c38_draw_polygon",
    "c38_crossing_accuracy",
    "c38_no_rows_panics",
    "c38_hollow_polygon",
    "c38_hollow_one_vertex_panics"
   ],
   "note": "filled polygons: even-odd rule plus outline, coordinates up to 2^22; f32 interpolation error below one pixel up to 2^20; hollow polygons; antialiased polygons are C98; an image without rows panics"
  },
  {
   "property": "C39",
   "status": "proved",
   "theorems": [
    "c39_suppress_non_maximum"
   ],
   "note": "every u32-sized image; the tie rule is the one the code documents, and no other pixel is kept or changed"
  },
  {
   "property": "C40",
   "status": "partial",
   "theorems": [
    "c40_local_maxima_refuted",
    "c40_local_maxima_partial"
   ],
   "note": "refuted: preferred items in the bottom row of the input are never looked at, so a non-maximum next to it is kept (c40_local_maxima_refuted); c40_local_maxima_partial is the exact characterisation of what is kept"
  },
  {
   "property": "C41",
   "status": "proved",
   "theorems": [
    "c41_seam_valid",
    "c41_narrow_panics"
   ],
   "note": "u8 images with 1 to 45 channels, width at least 2, any height for which the u32 path energies cannot overflow (rows*1442 < 2^32)"
  },
  {
   "property": "C42",
   "status": "partial",
   "theorems": [
    "c42_seam_minimal_refuted",
    "c42_seam_minimal_partial"
   ],
   "note": "refuted: retracing compares the right neighbour with a stale energy (c42_seam_minimal_refuted, 2x2 image); c42_seam_minimal_partial: the bottom column is optimal, and the seam is minimal if it never steps right on the way up and meets no zero-energy pixel"
  },
  {
   "property": "C43",
   "status": "proved",
   "theorems": [
    "c43_remove_seam",
    "c43_shrink_width",
    "c43_shrink_too_wide_panics"
   ],
   "note": "seam removal for any pixel type; shrink_width for every target of at least 1"
  },
  {
   "property": "C44",
   "status": "partial",
   "theorems": [
    "c44_draw_seams_refuted",
    "c44_draw_seams_partial",
    "c44_draw_one_seam"
   ],
   "note": "refuted: with two seams in column 0 the same pixel is marked twice (c44_draw_seams_refuted); right for one seam (c44_draw_one_seam) and whenever no earlier mark lies between the current and the original column (c44_draw_seams_partial)"
  },
  {
   "property": "C45",
   "status": "proved",
   "theorems": [
    "c45_contours",
    "c45_find_contours"
   ],
   "note": "every image with width*height+1 < 2^31 whose coordinates fit the point type; also that each border starts beside a background pixel"
  },
  {
   "property": "C46",
   "status": "partial",
   "theorems": [
    "c46_outer_contour_refuted",
    "c46_outer_contour_partial"
   ],
   "note": "refuted: a region whose first pixel is in column 0 (already the 1x1 image) has no outer contour (c46_outer_contour_refuted); c46_outer_contour_partial: every other region has an outer contour starting at its first pixel and no other contour starts there; that no second outer contour of the same region starts elsewhere is not proved"
  },
  {
   "property": "C47",
   "status": "proved",
   "theorems": [
    "c47_convex_hull",
    "c47_collinear",
    "c47_wide_points_panic"
   ],
   "note": "c47_convex_hull: all i32 points, not all collinear, coordinates at most 32767 apart; f64 distances of the sort proved exact; c47_wide_points_panic shows the overflow beyond; points on one line give the two ends of their segment (c47_collinear). Assumes that sort_by does not panic on repeated points, for which the comparison is not a total order"
  },
  {
   "property": "C48",
   "status": "partial",
   "theorems": [
    "c48_area_refuted",
    "c48_area_partial"
   ],
   "note": "refuted for large coordinates, where f64 products round (c48_area_refuted); c48_area_partial: exact half shoelace sum and all the laws when 2 B^2 n <= 2^53"
  },
  {
   "property": "C49",
   "status": "partial",
   "theorems": [
    "c49_simplify_refuted",
    "c49_simplify_partial",
    "c49_endless_recursion"
   ],
   "note": "refuted: curves whose first and last points coincide collapse (c49_simplify_refuted), and with coordinates near 2^30 the recursion is endless (c49_endless_recursion); c49_simplify_partial: coordinates up to 2^24, chords with distinct ends"
  },
  {
   "property": "C50",
   "status": "partial",
   "theorems": [
    "c50_documented_order_refuted",
    "c50_local_binary_pattern_partial"
   ],
   "note": "the documentation puts the first neighbour in the most significant bit, the code in the least significant (c50_documented_order_refuted); c50_local_binary_pattern_partial proves the code with the opposite bit order for every interior pixel"
  },
  {
   "property": "C51",
   "status": "proved",
   "theorems": [
    "c51_min_shift",
    "c51_count_transitions",
    "c51_uniform_table"
   ],
   "note": "all 256 bytes; min_shift, transition count and the uniform table"
  },
  {
   "property": "C52",
   "status": "partial",
   "theorems": [
    "c52_fast9",
    "c52_fast12_refuted",
    "c52_fast12_partial"
   ],
   "note": "FAST-9 proved for every image, position and threshold (c52_fast9); FAST-12 misses sections that avoid the top or bottom pixel (c52_fast12_refuted); c52_fast12_partial says exactly what it decides"
  },
  {
   "property": "C53",
   "status": "proved",
   "theorems": [
    "c53_score",
    "c53_score_fast9",
    "c53_corners_fast9",
    "c53_corners_fast12"
   ],
   "note": "for both variants relative to the test of the program; for FAST-9 relative to the definition; the detectors list every corner once in reading order"
  },
  {
   "property": "C54",
   "status": "partial",
   "theorems": [
    "c54_find_extremes_partial",
    "c54_lexicographic_refuted",
    "c54_find_extremes_f32_partial",
    "c54_nan_refuted"
   ],
   "note": "the location returned is the first in reading order (c54_find_extremes_partial, c54_find_extremes_f32_partial), not the lexicographically smallest (x, y) of the documentation (c54_lexicographic_refuted); a NaN in the first pixel of a float image hides the extremes (c54_nan_refuted)"
  },
  {
   "property": "C55",
   "status": "proved",
   "theorems": [
    "c55_match_template",
    "c55_match_template_with_mask",
    "c55_parallel",
    "c55_too_large"
   ],
   "note": "all four methods with and without mask: size, in-bounds reads, exact plain sums up to 2^24, relative error bound of every score for templates under 2^20 pixels; parallel version equal; panics when the template is larger"
  },
  {
   "property": "C56",
   "status": "partial",
   "theorems": [
    "c56_brief_partial",
    "c56_brief_refuted",
    "c56_rejects",
    "c56_zero_length"
   ],
   "note": "refuted: the shift drops the first outcome of every 128, so keypoints that differ only there get equal descriptors (c56_brief_refuted), and length 0 gives 128-bit descriptors (c56_zero_length); c56_brief_partial: every bit of every descriptor, and that descriptors differ exactly when an outcome other than the first of each 128 differs; images with pixel sum below 2^31"
  },
  {
   "property": "C57",
   "status": "proved",
   "theorems": [
    "c57_descriptor_distance",
    "c57_descriptor_triangle",
    "c57_length_mismatch",
    "c57_hash_distance",
    "c57_hash_bits",
    "c57_hash_bits_panic"
   ],
   "note": "descriptors of up to 2^32 bits and 64-bit hashes; the conversion of 64 booleans to a hash loses nothing"
  },
  {
   "property": "C58",
   "status": "partial",
   "theorems": [
    "c58_matches",
    "c58_empty",
    "c58_matching_partial",
    "c58_matching_refuted"
   ],
   "note": "refuted: when the first list is longer the roles are swapped and duplicates in the first list are dropped (c58_matching_refuted); c58_matches gives the exact result for all random bit choices, c58_matching_partial the soundness and the completeness for the shorter list"
  },
  {
   "property": "C59",
   "status": "partial",
   "theorems": [
    "c59_refuted",
    "c59_panics",
    "c59_from_options_partial",
    "c59_accepted_fits",
    "c59_blocks_inside",
    "c59_descriptor_length",
    "c59_descriptor"
   ],
   "note": "refuted: zero cell side, zero stride and blocks larger than the cell grid panic (c59_refuted, c59_panics); for all other options c59_from_options_partial gives acceptance exactly when the options fit; the descriptor layout and length are proved for every histogram grid (c59_descriptor); cell_histograms is C99"
  },
  {
   "property": "C60",
   "status": "partial",
   "theorems": [
    "c60_hysteresis_partial",
    "c60_hysteresis_sound_partial",
    "c60_hysteresis_refuted",
    "c60_zero_threshold_panics",
    "c60_suppression",
    "c60_direction",
    "c60_canny_stages"
   ],
   "note": "refuted: the flood fill looks at six of the eight neighbours (c60_hysteresis_refuted) and a zero low threshold makes it walk off the image (c60_zero_threshold_panics); c60_hysteresis_partial gives the exact marked set; the suppression stage and the choice of direction are proved for all gradients and angles; the whole detector from the image is C100"
  },
  {
   "property": "C61",
   "status": "proved",
   "theorems": [
    "c61_integers",
    "c61_identity",
    "c61_floats",
    "c61_models_agree"
   ],
   "note": "all integer and float Clamp implementations"
  },
  {
   "property": "C62",
   "status": "proved",
   "theorems": [
    "c62_sobel_gradients",
    "c62_prewitt_gradients",
    "c62_sobel_gradient_map",
    "c62_magnitude",
    "c62_directional"
   ],
   "note": "u8 images of any size and channel count; the f32 square root is modelled with Flocq and shown to give the integer square root exactly"
  },
  {
   "property": "C63",
   "status": "proved",
   "theorems": [
    "c63_contains",
    "c63_contains_f32",
    "c63_intersect",
    "c63_right_edge_panics"
   ],
   "note": "integer and f32 membership; the i32 overflow at the edge is c63_right_edge_panics"
  },
  {
   "property": "C64",
   "status": "proved",
   "theorems": [
    "c64_evaluate",
    "c64_evaluate_frame"
   ],
   "note": "for every frame and feature; integral image as in C12"
  },
  {
   "property": "C65",
   "status": "partial",
   "theorems": [
    "c65_refuted",
    "c65_panics",
    "c65_enumeration_partial",
    "c65_closed_form"
   ],
   "note": "refuted: frames of width or height 255 overflow a u8 range bound and panic (c65_panics); all other sizes proved; the closed form is right for 255 too"
  },
  {
   "property": "C66",
   "status": "partial",
   "theorems": [
    "c66_compose",
    "c66_invert",
    "c66_from_matrix",
    "c66_constructors",
    "c66_none_refuted",
    "c66_none_partial",
    "c66_zero_matrix_accepted",
    "c66_invert_f32_refuted"
   ],
   "note": "over the reals composition and inversion are proved for every projection built by the API; refuted: from_matrix rejects scaling by 1e-6 (c66_none_refuted), accepts the zero matrix in f32 (c66_zero_matrix_accepted) and builds inverses with NaN entries (c66_invert_f32_refuted); c66_none_partial: over the reals None exactly for small determinants of the normalised matrix"
  },
  {
   "property": "C67",
   "status": "partial",
   "theorems": [
    "c67_refuted",
    "c67_nan_reads_outside",
    "c67_empty_panics",
    "c67_warp_with_partial",
    "c67_infinite",
    "c67_warp_partial",
    "c67_shift"
   ],
   "note": "refuted: NaN pre-images show column 0 (c67_refuted) or read outside narrow images in bicubic mode (c67_nan_reads_outside), width-0 outputs panic (c67_empty_panics); proved for u8 and u16 images up to 2^24 rows and columns and all mappings without NaN, with explicit rounding error; whole-pixel shifts exact (c67_shift); rotations are C101"
  },
  {
   "property": "C68",
   "status": "proved",
   "theorems": [
    "c68_size_guard",
    "c68_rejects"
   ],
   "note": "all u32 sizes"
  },
  {
   "property": "C69",
   "status": "proved",
   "theorems": [
    "c69_salt_and_pepper",
    "c69_which_pixels",
    "c69_extreme_rates",
    "c69_deterministic",
    "c69_gaussian",
    "c69_gaussian_bad_parameters"
   ],
   "note": "generator and samplers are parameters; gaussian_noise covered too"
  },
  {
   "property": "C70",
   "status": "proved",
   "theorems": [
    "c70_inplace",
    "c70_transpose",
    "c70_involution",
    "c70_not_square",
    "c70_dct2d"
   ],
   "note": "any vector and side; the 1-D DCT of the external crate is a parameter"
  },
  {
   "property": "C71",
   "status": "proved",
   "theorems": [
    "c71_pixel_diffs",
    "c71_summary",
    "c71_description",
    "c71_within"
   ],
   "note": "summary for sides below 2^31-2 (its border arithmetic is i32)"
  },
  {
   "property": "C72",
   "status": "proved",
   "theorems": [
    "c72_cross"
   ],
   "note": "any per-pixel effect"
  },
  {
   "property": "C73",
   "status": "partial",
   "theorems": [
    "c73_interpolate_refuted",
    "c73_interpolate_partial",
    "c73_interpolate_ends",
    "c73_line_weights_refuted",
    "c73_line_weights_falling",
    "c73_line_weights_partial"
   ],
   "note": "refuted: mixing 3 with itself at weight 0.007 gives 2 (c73_interpolate_refuted), lines through negative coordinates see weights outside [0,1] (c73_line_weights_refuted) and falling lines weights above 1 (c73_line_weights_falling); c73_interpolate_partial: off by at most one below; c73_line_weights_partial: lines whose coordinates are nonnegative and grow together"
  },
  {
   "property": "C74",
   "status": "partial",
   "theorems": [
    "c74_otsu_refuted",
    "c74_overflow_panics",
    "c74_white_panics",
    "c74_otsu_partial",
    "c74_classes_nonempty"
   ],
   "note": "refuted: on exact ties f64 rounding may pick the later level (c74_otsu_refuted), and t * count overflows u32 from 16843010 white pixels on (c74_overflow_panics, c74_white_panics); c74_otsu_partial: otherwise within relative 2^-40 of the maximum, at an occurring level"
  },
  {
   "property": "C75",
   "status": "proved",
   "theorems": [
    "c75_match",
    "c75_histograms_only",
    "c75_empty_target",
    "c75_empty_image"
   ],
   "note": "table monotone, nearest in f32 shares, function of the two histograms; degenerate empty images"
  },
  {
   "property": "C76",
   "status": "proved",
   "theorems": [
    "c76_dilate_erode_laws",
    "c76_open_close_idempotent",
    "c76_open_close_extensive",
    "c76_duality"
   ],
   "note": "monotonicity, duality and idempotence for every k; extensivity of open/close below the saturation cap"
  },
  {
   "property": "C77",
   "status": "proved",
   "theorems": [
    "c77_min_max",
    "c77_min_max_empty"
   ],
   "note": "any channel count"
  },
  {
   "property": "C78",
   "status": "proved",
   "theorems": [
    "c78_iterators_in_image",
    "c78_iterators_follow_line"
   ],
   "note": "every pair of f32 end points, including NaN and infinities"
  },
  {
   "property": "C79",
   "status": "proved",
   "theorems": [
    "c79_draw"
   ],
   "note": "all images, features and colors"
  },
  {
   "property": "C80",
   "status": "partial",
   "theorems": [
    "c80_panics",
    "c80_refuted",
    "c80_bilateral_partial"
   ],
   "note": "refuted: from radius 91 on a product of two i16 overflows and every call panics (c80_panics); c80_bilateral_partial: radius up to 90; exp is a parameter"
  },
  {
   "property": "C81",
   "status": "partial",
   "theorems": [
    "c81_refuted",
    "c81_lines_partial"
   ],
   "note": "refuted for lines through negative coordinates (c81_refuted); c81_lines_partial: coordinates 0..1000, weights to within an explicit rounding error"
  },
  {
   "property": "C82",
   "status": "partial",
   "theorems": [
    "c82_control_points_partial"
   ],
   "note": "real arithmetic and an exact solver; the SVD solver of nalgebra and rounding are not modelled"
  },
  {
   "property": "C83",
   "status": "partial",
   "theorems": [
    "c83_refuted",
    "c83_detect_lines_partial",
    "c83_reported_iff_partial",
    "c83_votes_total_partial",
    "c83_vote_near"
   ],
   "note": "refuted from 65536 columns or rows on, where width^2 + height^2 overflows u32 (c83_refuted); proved for every image whose squared diagonal fits; sine and cosine table is a parameter"
  },
  {
   "property": "C84",
   "status": "partial",
   "theorems": [
    "c84_refuted",
    "c84_degenerate_f32",
    "c84_intersection_partial",
    "c84_in_box"
   ],
   "note": "refuted: a line through a lower corner that leaves through the top edge is clipped to a single point (c84_refuted over the reals, c84_degenerate_f32 in f32); c84_intersection_partial: exact clipping over the reals for all other lines; c84_in_box: both points on the border for all f32"
  },
  {
   "property": "C85",
   "status": "proved",
   "theorems": [
    "c85_draw_polar_lines"
   ],
   "note": "sine and cosine are a parameter, so the theorem holds for every angle and any libm"
  },
  {
   "property": "C86",
   "status": "partial",
   "theorems": [
    "c86_huge_panics",
    "c86_size_panics",
    "c86_mean_squared_error_partial",
    "c86_refuted",
    "c86_distance_partial",
    "c86_psnr_equal"
   ],
   "note": "refuted for images of 2^32 or more channel values, whose count overflows u32 (c86_refuted, c86_huge_panics); proved for all 8-bit images below that and for wider types while the sum of squares cannot exceed 2^53"
  },
  {
   "property": "C87",
   "status": "proved",
   "theorems": [
    "c87_sharpen3x3",
    "c87_laplacian"
   ],
   "note": "both filters on all 8-bit images, checked i32 and i16 arithmetic"
  },
  {
   "property": "C88",
   "status": "proved",
   "theorems": [
    "c88_into_channel",
    "c88_from_channel",
    "c88_round_trip"
   ],
   "note": "channel index 0, 1, 2 stands for red, green, blue"
  },
  {
   "property": "C89",
   "status": "partial",
   "theorems": [
    "c89_moments_refuted",
    "c89_small_panics",
    "c89_refuted",
    "c89_edge_panics",
    "c89_oriented_fast_partial",
    "c89_sampled_partial"
   ],
   "note": "refuted: the patch moments weight clipped patches as if they started 15 pixels before the keypoint (c89_moments_refuted), the sampled threshold panics on small images (c89_small_panics), an edge larger than the image panics (c89_edge_panics); proved: best n corners best first, right orientation for keypoints with x, y >= 15 (c89_oriented_fast_partial), sampled threshold case (c89_sampled_partial); atan2 and the random source are parameters"
  },
  {
   "property": "C90",
   "status": "partial",
   "theorems": [
    "c90_kapur_partial",
    "c90_f64_partial",
    "c90_f64_exact",
    "c90_ln_exists",
    "c90_total",
    "c90_huge_panics",
    "c90_refuted"
   ],
   "note": "f64 with a logarithm accurate to 2^-46: the level returned is a grey level of the image with pixels on both sides and no split has an entropy larger by more than pixels/2^35 (c90_f64_partial), so it is the best level whenever that one leads by more (c90_f64_exact), and such a logarithm exists (c90_ln_exists); exact arithmetic and real logarithm give the lowest best level (c90_kapur_partial); never panics below 2^32 pixels whatever the logarithm (c90_total); refuted from 2^32 pixels on, where the pixel count overflows (c90_refuted); missing: which of several levels closer together than pixels/2^35 is returned in f64"
  },
  {
   "property": "C91",
   "status": "partial",
   "theorems": [
    "c91_blur_partial",
    "c91_window_partial",
    "c91_kernel_partial",
    "c91_tiny_white",
    "c91_refuted",
    "c91_constant_darkens"
   ],
   "note": "sigma from 2^-40 to 500 and every image: less than 5/2 below and at most 1/2 above the exact average (c91_blur_partial), within the window range except up to 2 below (c91_window_partial), kernel symmetric and normalised (c91_kernel_partial); refuted: tiny sigma gives NaN weights and white images (c91_tiny_white, c91_refuted), and constant images darken by 2 (c91_constant_darkens); exp is a parameter with absolute error 2^-20; missing: sigma above 500"
  },
  {
   "property": "C92",
   "status": "partial",
   "theorems": [
    "c92_blur_f32",
    "c92_sharpen_partial",
    "c92_zero_amount",
    "c92_tiny_white",
    "c92_refuted"
   ],
   "note": "sigma from 2^-40 to 500, amounts up to 2^60, explicit error bound (c92_sharpen_partial), amount 0 is the identity (c92_zero_amount); refuted: tiny sigma whitens the image even with amount 0 (c92_tiny_white, c92_refuted)"
  },
  {
   "property": "C93",
   "status": "partial",
   "theorems": [
    "c93_bezier_partial",
    "c93_huge_panics",
    "c93_refuted"
   ],
   "note": "control points with coordinates up to 4096 in magnitude, every image below 2^31 x 2^31; the last pixel is nearest to the end point up to 1/15 (c93_bezier_partial); refuted: coordinates of 2^31 panic (c93_huge_panics, c93_refuted)"
  },
  {
   "property": "C94",
   "status": "partial",
   "theorems": [
    "c94_text_partial",
    "c94_set",
    "c94_far_panics",
    "c94_refuted"
   ],
   "note": "positions up to 2^29, every font (parameter), text, 8/16-bit image and colour (c94_text_partial); every text can be set (c94_set); refuted: x = i32::MAX panics instead of drawing nothing (c94_far_panics, c94_refuted)"
  },
  {
   "property": "C95",
   "status": "partial",
   "theorems": [
    "c95_size_partial",
    "c95_empty",
    "c95_negative_panics",
    "c95_kerning_refuted"
   ],
   "note": "size for every text and font with the pen moved as the code moves it (c95_size_partial, c95_empty); refuted: the kerning table is indexed by (this, previous) and applied after the pair (c95_kerning_refuted); texts whose pen ends left of -1 panic (c95_negative_panics)"
  },
  {
   "property": "C96",
   "status": "partial",
   "theorems": [
    "c96_outline_partial",
    "c96_near",
    "c96_flat_refuted",
    "c96_large_panics",
    "c96_zero_height"
   ],
   "note": "radii 1..250, all images and centres up to 2^30; ends at the extreme point unless 2w > h^2 (c96_outline_partial); refuted: radii 8 and 1 stop one pixel short (c96_flat_refuted), radii from 46341 on panic (c96_large_panics), height 0 draws only the centre (c96_zero_height)"
  },
  {
   "property": "C97",
   "status": "partial",
   "theorems": [
    "c97_filled_partial",
    "c97_refuted"
   ],
   "note": "radii 1..250, centres up to 2^21 (c97_filled_partial); refuted for radii from 46341 on, which panic (c97_refuted)"
  },
  {
   "property": "C98",
   "status": "partial",
   "theorems": [
    "c98_refuted",
    "c98_polygon_partial",
    "c98_away_from_edges",
    "c98_solid_interior",
    "c98_interpolate_refuted"
   ],
   "note": "vertices with coordinates 0..1000 (c98_polygon_partial, c98_away_from_edges, c98_solid_interior for blends that leave a colour painted over itself unchanged); refuted for negative coordinates (c98_refuted: a pixel 3/2 away from the only edge is painted); with the crate's own interpolate an interior pixel can differ from the colour by one level (c98_interpolate_refuted)"
  },
  {
   "property": "C99",
   "status": "partial",
   "theorems": [
    "c99_atan2_exists",
    "c99_refuted",
    "c99_hog_partial",
    "c99_mirror_refuted"
   ],
   "note": "images up to 2^18 x 2^18, cells up to 256 x 256, 1..4096 bins, error at most cell area / 64 + (w + h) / (2900 side) + bins / 22 + 1/100 (c99_hog_partial), for every arc tangent accurate to 2^-20 (one exists: c99_atan2_exists); refuted: 0 orientation bins are accepted and panic (c99_refuted); mirroring the image does not mirror the cells, because positions are measured from the corner of a cell (c99_mirror_refuted)"
  },
  {
   "property": "C100",
   "status": "partial",
   "theorems": [
    "c100_hypot_exists",
    "c100_refuted",
    "c100_canny_partial",
    "c100_contrast",
    "c100_greatest_strength",
    "c100_step_found"
   ],
   "note": "all non-empty images of fewer than 2^32 pixels (c100_canny_partial) except that edges are followed through six of the eight neighbours only, which is what the code does (see C60); refuted for empty images, which panic (c100_refuted); c100_contrast, c100_greatest_strength and c100_step_found (vertical steps) give the consequences a user sees; hypot is assumed correctly rounded on Sobel gradients, exp and atan2 as in C91 and C99 (functions as assumed exist: c100_hypot_exists, c99_atan2_exists)"
  },
  {
   "property": "C101",
   "status": "partial",
   "theorems": [
    "c101_sincos_exists",
    "c101_refuted",
    "c101_rotate_partial",
    "c101_half_turn_partial",
    "c101_half_turn_refuted"
   ],
   "note": "non-empty images and centres up to 32768, positions to within N/500000 of a pixel where N bounds the size (c101_rotate_partial); refuted: empty images panic (c101_refuted); half a turn does not reverse the image: the pixel (x, y) comes from (w - x, h - y), so the first row and column are lost (c101_half_turn_refuted, c101_half_turn_partial)"
  },
  {
   "property": "C102",
   "status": "partial",
   "theorems": [
    "c102_phash_partial",
    "c102_brightness_partial",
    "c102_dct_exists",
    "c102_refuted"
   ],
   "note": "every bit whose coefficient is further from the mean than the explicit rounding error (130 e + 1/170) B is right (c102_phash_partial), agrees after a change of brightness and contrast and is inverted in the negative (c102_brightness_partial); refuted without that margin: with an accurate transform flat pictures of different brightness can differ in their hashes (c102_refuted). The resize of the image crate and the transform of rustdct are parameters; a transform as required exists (c102_dct_exists); samples up to 10^6"
  },
  {
   "property": "C103",
   "status": "partial",
   "theorems": [
    "c103_min_area_rect_partial",
    "c103_least_partial",
    "c103_collinear",
    "c103_libm_exists",
    "c103_refuted",
    "c103_unsigned_panics"
   ],
   "note": "c103_min_area_rect_partial: the result lists the rounded corners of an enclosing rectangle parallel to a hull edge, and no enclosing rectangle is smaller by more than 1/8 unless it is no smaller than one parallel to the closing edge of the hull; full optimality when that edge is parallel or perpendicular to another (c103_least_partial); refuted in general: the code does not try the closing edge, for a triangle it returns a rectangle half as large again as the least (c103_refuted); for unsigned coordinates it can panic (c103_unsigned_panics); points on one line (c103_collinear). atan2 and sin_cos are parameters; accurate ones exist (c103_libm_exists); integer coordinates up to 1048576 in size, at most 32767 apart"
  },
  {
   "property": "C104",
   "status": "partial",
   "theorems": [
    "c104_rays",
    "c104_trig_exists",
    "c104_picture_partial",
    "c104_one_cell",
    "c104_only_last_cell",
    "c104_black",
    "c104_refuted"
   ],
   "note": "c104_picture_partial: no panic, the right size, and every pixel shows the star of the last cell drawn as large as the whole picture; the full property for grids of one cell (c104_one_cell); refuted in general: the code passes the underlying image, not the window, so all stars are drawn in the same place and only the last remains (c104_refuted, c104_black, c104_only_last_cell); pictures up to 1048576 pixels wide and high and up to 1048576 buckets; rests on SubImage::inner_mut of the image crate returning the underlying image; sine and cosine are parameters; for sine and cosine accurate to 2^-22 the drawn rays stay within 2.65 of the ideal ones and leave no part of them further than 3.65 (c104_rays; such functions exist: c104_trig_exists), pictures up to 16384"
  },
  {
   "property": "C105",
   "status": "partial",
   "theorems": [
    "c105_l1_partial",
    "c105_l2_partial",
    "c105_unit_partial",
    "c105_zero_block",
    "c105_contrast_partial",
    "c105_tiny",
    "c105_huge",
    "c105_refuted"
   ],
   "note": "c105_unit_partial: entries up to 2^50, blocks of up to 2^20 entries with norm at least 2^-40, relative error (n + 3) / 2^22; the norms themselves in c105_l1_partial and c105_l2_partial; independence of contrast in c105_contrast_partial; zero blocks in c105_zero_block; refuted outside: a block with the single value 2^-80 is not scaled (c105_tiny, c105_refuted), one with 2^65 becomes zero (c105_huge)"
  },
  {
   "property": "C106",
   "status": "proved",
   "theorems": [
    "c106_gradients",
    "c106_gradient_map",
    "c106_negative_gradients",
    "c106_hog",
    "c106_fast",
    "c106_negative_fast9",
    "c106_lbp"
   ],
   "note": "c106_gradients, c106_gradient_map, c106_hog (bit for bit, for every arc tangent), c106_fast (both variants, scores and lists), c106_lbp (any strictly increasing change); the negative: c106_negative_gradients, c106_negative_fast9"
  },
  {
   "property": "C107",
   "status": "proved",
   "theorems": [
    "c107_symmetries",
    "c107_distance",
    "c107_morphology",
    "c107_gradients",
    "c107_median",
    "c107_box",
    "c107_box_transposed_refuted",
    "c107_histograms",
    "c107_levels",
    "c107_fast9",
    "c107_fast9_list",
    "c107_components",
    "c107_grayscale"
   ],
   "note": "c107_symmetries says that the five operations are symmetries; c107_distance, c107_morphology, c107_grayscale, c107_gradients, c107_median, c107_components, c107_fast9, c107_fast9_list, c107_box, c107_histograms, c107_levels; box_filter does not follow an exchange of the axes: c107_box_transposed_refuted"
  },
  {
   "property": "C108",
   "status": "proved",
   "theorems": [
    "c108_search",
    "c108_cut_is_found",
    "c108_correlation"
   ],
   "note": "c108_search (any template), c108_cut_is_found (with crop), c108_correlation (normalized cross-correlation; the bound is 8(n+1)/2^24 for n pixels)"
  },
  {
   "property": "C109",
   "status": "proved",
   "theorems": [
    "c109_crop",
    "c109_filter",
    "c109_separable",
    "c109_gradients",
    "c109_box",
    "c109_median",
    "c109_grayscale",
    "c109_morphology",
    "c109_adaptive",
    "c109_fast9"
   ],
   "note": "c109_crop makes tiles; c109_filter, c109_separable, c109_gradients, c109_box, c109_median, c109_adaptive, c109_grayscale, c109_morphology (radius below 255 and below the half perimeter of the tile, as in C22), c109_fast9"
  },
  {
   "property": "C110",
   "status": "proved",
   "theorems": [
    "c110_median_monotone",
    "c110_median_negative",
    "c110_box_monotone",
    "c110_filter_monotone",
    "c110_gradients_negative",
    "c110_fast9_negative",
    "c110_morphology_negative",
    "c110_box_negative_refuted"
   ],
   "note": "c110_median_monotone, c110_box_monotone, c110_filter_monotone (integer arithmetic); c110_median_negative, c110_morphology_negative, c110_gradients_negative, c110_fast9_negative; the mean of the negative is not always the negative of the mean (c110_box_negative_refuted)"
  },
  {
   "property": "C111",
   "status": "proved",
   "theorems": [
    "c111_equalize_twice",
    "c111_match_self",
    "c111_match_self_refuted",
    "c111_threshold_twice",
    "c111_threshold_refuted"
   ],
   "note": "c111_equalize_twice, c111_match_self, c111_threshold_twice. The size limit of self-matching cannot be dropped: with 2^24 pixels of one level and one brighter pixel the brighter one is lost (c111_match_self_refuted). BinaryInverted does not settle (c111_threshold_refuted)."
  },
  {
   "property": "C112",
   "status": "proved",
   "theorems": [
    "c112_repaint",
    "c112_twice",
    "c112_any_order",
    "c112_background"
   ],
   "note": "c112_twice, c112_repaint, c112_any_order, c112_background"
  },
  {
   "property": "C113",
   "status": "proved",
   "theorems": [
    "c113_zero",
    "c113_neighbours",
    "c113_monotone",
    "c113_norms",
    "c113_euclid"
   ],
   "note": "c113_zero, c113_neighbours, c113_monotone, c113_norms, c113_euclid"
  },
  {
   "property": "C114",
   "status": "proved",
   "theorems": [
    "c114_component",
    "c114_undo",
    "c114_undo_refuted"
   ],
   "note": "c114_component, c114_undo; a fill colour that already occurs next to the region cannot be undone (c114_undo_refuted)"
  },
  {
   "property": "C115",
   "status": "proved",
   "theorems": [
    "c115_histogram",
    "c115_percentile",
    "c115_levels",
    "c115_equalize",
    "c115_match"
   ],
   "note": "c115_histogram, c115_percentile, c115_levels (Kapur for any arithmetic and logarithm), c115_equalize, c115_match"
  },
  {
   "property": "C116",
   "status": "proved",
   "theorems": [
    "c116_translations_add",
    "c116_opposite_refuted",
    "c116_crop_crop",
    "c116_flips",
    "c116_paste_cut"
   ],
   "note": "c116_translations_add, c116_crop_crop, c116_flips, c116_paste_cut; opposite shifts lose the border (c116_opposite_refuted); the last row and column are excluded because replace does not copy them (c05_replace_refuted)"
  }
 ]
}