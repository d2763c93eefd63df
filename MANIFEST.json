{
 "claims": [
  {
   "property": "C01",
   "status": "proved",
   "theorems": [
    "C01_parse_ends"
   ],
   "note": "Every outcome of the model is a result or the overflow panic; loops never run out of fuel."
  },
  {
   "property": "C02",
   "status": "proved",
   "theorems": [
    "C02_panic_iff",
    "C02_no_e_no_panic",
    "C02_release_no_panic"
   ],
   "note": ""
  },
  {
   "property": "C03",
   "status": "proved",
   "theorems": [
    "C03_profiles_agree"
   ],
   "note": ""
  },
  {
   "property": "C04",
   "status": "proved",
   "theorems": [
    "C04_tokenize_grammar",
    "C04_unambiguous",
    "C04_white_space",
    "C04_white_space_table",
    "C04_characters",
    "C04_classes"
   ],
   "note": "Unicode tables abstracted by cc_ok."
  },
  {
   "property": "C05",
   "status": "proved",
   "theorems": [
    "C05_positions"
   ],
   "note": ""
  },
  {
   "property": "C06",
   "status": "proved",
   "theorems": [
    "C06_crlf",
    "C06_crlf_back",
    "C06_all_texts_refuted"
   ],
   "note": "For texts without CR LF pairs; the unrestricted statement is refuted."
  },
  {
   "property": "C07",
   "status": "proved",
   "theorems": [
    "C07_same_kinds",
    "C07_same_kinds_text",
    "C07_layout_inserted",
    "C07_between_tokens"
   ],
   "note": "Messages of errors are not compared. Layout insertion is stated for texts without carriage returns."
  },
  {
   "property": "C08",
   "status": "proved",
   "theorems": [
    "C08_literal",
    "C08_literal_first",
    "C08_literal_inside",
    "C08_escapes",
    "C08_unterminated"
   ],
   "note": ""
  },
  {
   "property": "C09",
   "status": "proved",
   "theorems": [
    "C09_in_range",
    "C09_in_range_first",
    "C09_out_of_range",
    "C09_every_integer"
   ],
   "note": ""
  },
  {
   "property": "C10",
   "status": "partial",
   "theorems": [
    "C10_exponent_refuted",
    "C10_exponent_partial",
    "C10_exponent_exact"
   ],
   "note": "The expected statement is false of the code; the exact behaviour is proved."
  },
  {
   "property": "C100",
   "status": "partial",
   "theorems": [
    "C100_never_late",
    "C100_never_late_text",
    "C100_first_wrong_refuted",
    "C100_first_wrong_partial",
    "C100_beginnings"
   ],
   "note": "The place is never too late; it can be too early for numbers and for counts."
  },
  {
   "property": "C101",
   "status": "proved",
   "theorems": [
    "C101_size",
    "C101_tokens",
    "C101_scene"
   ],
   "note": ""
  },
  {
   "property": "C102",
   "status": "partial",
   "theorems": [
    "C102_equal_rows_refuted",
    "C102_equal_columns_refuted",
    "C102_regular_refuted",
    "C102_zero_row_refuted",
    "C102_result_partial",
    "C102_infinity"
   ],
   "note": "The expected statement is false of the code in both directions; proved what a result without NaN does say about the matrix."
  },
  {
   "property": "C103",
   "status": "partial",
   "theorems": [
    "C103_same_refuted",
    "C103_box_refuted",
    "C103_between_partial",
    "C103_monotone_refuted"
   ],
   "note": "The expected statement is false of the code; proved up to four rounding errors."
  },
  {
   "property": "C104",
   "status": "proved",
   "theorems": [
    "C104_ends",
    "C104_finite",
    "C104_order",
    "C104_negation",
    "C104_sign",
    "C104_points",
    "C104_boxes"
   ],
   "note": ""
  },
  {
   "property": "C105",
   "status": "proved",
   "theorems": [
    "C105_formula",
    "C105_error",
    "C105_zero",
    "C105_zero_overflow_refuted",
    "C105_one",
    "C105_one_near",
    "C105_one_exact_refuted"
   ],
   "note": "The refuted theorems show that the conditions of C105_zero and C105_one are needed."
  },
  {
   "property": "C106",
   "status": "partial",
   "theorems": [
    "C106_near_partial",
    "C106_exact_refuted"
   ],
   "note": "Exact return is false of the code; proved up to a stated number of rounding errors."
  },
  {
   "property": "C107",
   "status": "proved",
   "theorems": [
    "C107_new",
    "C107_union_pt",
    "C107_union",
    "C107_intersect",
    "C107_added_point",
    "C107_added_box",
    "C107_kept_point",
    "C107_kept_box",
    "C107_order_refuted",
    "C107_union_order_refuted",
    "C107_overlaps",
    "C107_inside"
   ],
   "note": "The refuted theorems show that with NaN the order of the arguments matters."
  },
  {
   "property": "C108",
   "status": "proved",
   "theorems": [
    "C108_points",
    "C108_order",
    "C108_boxes",
    "C108_split",
    "C108_nan"
   ],
   "note": ""
  },
  {
   "property": "C109",
   "status": "proved",
   "theorems": [
    "C109_inverse_accuracy",
    "C109_panic",
    "C109_transform",
    "C109_any_invertible_refuted"
   ],
   "note": "The refuted theorem shows that the condition on the size of the inverse is needed."
  },
  {
   "property": "C11",
   "status": "proved",
   "theorems": [
    "C11_lexical_error",
    "C11_lexical_error_after"
   ],
   "note": ""
  },
  {
   "property": "C110",
   "status": "proved",
   "theorems": [
    "C110_alike",
    "C110_texts",
    "C110_numbers",
    "C110_names",
    "C110_parameters",
    "C110_accepted"
   ],
   "note": ""
  },
  {
   "property": "C111",
   "status": "proved",
   "theorems": [
    "C111_inverse_twice",
    "C111_vector"
   ],
   "note": ""
  },
  {
   "property": "C112",
   "status": "proved",
   "theorems": [
    "C112_signs",
    "C112_negated",
    "C112_equal",
    "C112_nan_refuted"
   ],
   "note": "The refuted theorem shows that the condition on NaN is needed."
  },
  {
   "property": "C113",
   "status": "proved",
   "theorems": [
    "C113_ray",
    "C113_box_on_ray",
    "C113_offset",
    "C113_expand",
    "C113_diagonal",
    "C113_length",
    "C113_dot",
    "C113_transform",
    "C113_lerp"
   ],
   "note": ""
  },
  {
   "property": "C114",
   "status": "proved",
   "theorems": [
    "C114_vectors",
    "C114_products",
    "C114_points",
    "C114_rays",
    "C114_boxes",
    "C114_box_measures",
    "C114_matrices",
    "C114_exclusive_refuted",
    "C114_radius_refuted",
    "C114_nan_refuted"
   ],
   "note": "The refuted theorems are the exceptions named in the statement."
  },
  {
   "property": "C115",
   "status": "proved",
   "theorems": [
    "C115_blocks",
    "C115_last_row",
    "C115_far_refuted"
   ],
   "note": "C115_far_refuted shows that the bound on the entries is needed. That results may contain NaN is C86_small_entry_refuted."
  },
  {
   "property": "C116",
   "status": "proved",
   "theorems": [
    "C116_order",
    "C116_sums",
    "C116_expand",
    "C116_ratios",
    "C116_products",
    "C116_length",
    "C116_measures",
    "C116_multiples",
    "C116_lerp",
    "C116_transform",
    "C116_centre",
    "C116_coordinate_system",
    "C116_face_forward",
    "C116_tiny_refuted"
   ],
   "note": "C116_tiny_refuted shows that the condition on small products is needed."
  },
  {
   "property": "C117",
   "status": "proved",
   "theorems": [
    "C117_sums",
    "C117_products",
    "C117_length",
    "C117_measures",
    "C117_sphere",
    "C117_multiples",
    "C117_matrices",
    "C117_larger_refuted"
   ],
   "note": "C117_larger_refuted shows that the bounds cannot be raised."
  },
  {
   "property": "C118",
   "status": "proved",
   "theorems": [
    "C118_points",
    "C118_vectors",
    "C118_length",
    "C118_products",
    "C118_matrices",
    "C118_ray",
    "C118_offset",
    "C118_everything",
    "C118_coordinate_system"
   ],
   "note": ""
  },
  {
   "property": "C119",
   "status": "proved",
   "theorems": [
    "C119_order",
    "C119_swap",
    "C119_texts",
    "C119_exactly",
    "C119_same_type_refuted",
    "C119_anywhere_refuted"
   ],
   "note": "The refuted theorems show that parameters of the same type may not change places, and that what looks like two parameters is not two where the name of the shape is missing."
  },
  {
   "property": "C12",
   "status": "proved",
   "theorems": [
    "C12_parse_tokens_grammar",
    "C12_parse_grammar",
    "C12_unambiguous"
   ],
   "note": ""
  },
  {
   "property": "C120",
   "status": "proved",
   "theorems": [
    "C120_points",
    "C120_vectors",
    "C120_normals",
    "C120_boxes",
    "C120_dimension",
    "C120_extent",
    "C120_components",
    "C120_swap",
    "C120_cross",
    "C120_cross_swap",
    "C120_integers",
    "C120_lerp",
    "C120_floor",
    "C120_box_lerp",
    "C120_rays",
    "C120_differential",
    "C120_sphere",
    "C120_add",
    "C120_mul",
    "C120_transpose",
    "C120_translate",
    "C120_scale",
    "C120_transform",
    "C120_has_scale",
    "C120_dot_refuted",
    "C120_volume_refuted",
    "C120_area_refuted",
    "C120_tie_refuted",
    "C120_overflow_refuted",
    "C120_scale_refuted",
    "C120_frame_refuted"
   ],
   "note": "The refuted theorems show what does depend on the names: sums and products of floats under other renamings, the surface area, ties of the longest axis, overflow checks, the second matrix of scale (its last row has the factor of Z in it), the coordinate system."
  },
  {
   "property": "C121",
   "status": "proved",
   "theorems": [
    "C121_same_scene",
    "C121_closer_in",
    "C121_longer",
    "C121_tokens",
    "C121_token_lists",
    "C121_whole_refuted",
    "C121_longer_refuted",
    "C121_panic_refuted"
   ],
   "note": "The refuted theorems show that the conditions are needed."
  },
  {
   "property": "C122",
   "status": "proved",
   "theorems": [
    "C122_statements",
    "C122_same_scene",
    "C122_same_statements",
    "C122_tokens",
    "C122_meaning",
    "C122_spelling_refuted",
    "C122_dropped_refuted",
    "C122_order_refuted"
   ],
   "note": "The refuted theorems list what is lost."
  },
  {
   "property": "C123",
   "status": "proved",
   "theorems": [
    "C123_meaning",
    "C123_points",
    "C123_abs",
    "C123_vectors",
    "C123_v2_div",
    "C123_normals",
    "C123_boxes",
    "C123_area",
    "C123_offset",
    "C123_offset_inside",
    "C123_matrices",
    "C123_division",
    "C123_unchecked",
    "C123_unchecked_offset",
    "C123_inf_offset_refuted",
    "C123_unchecked_measure_refuted",
    "C123_unchecked_extent_refuted",
    "C123_unchecked_expand_refuted"
   ],
   "note": "The refuted theorems show what goes wrong without checks."
  },
  {
   "property": "C124",
   "status": "proved",
   "theorems": [
    "C124_associative",
    "C124_left",
    "C124_right",
    "C124_sum",
    "C124_successive",
    "C124_associative_refuted",
    "C124_left_refuted",
    "C124_successive_refuted"
   ],
   "note": "The refuted theorems show that the laws are not exact."
  },
  {
   "property": "C125",
   "status": "proved",
   "theorems": [
    "C125_paths",
    "C125_scenes",
    "C125_symmetric",
    "C125_transitive",
    "C125_self",
    "C125_literals",
    "C125_tokens",
    "C125_errors",
    "C125_error_laws",
    "C125_results",
    "C125_always_self_refuted",
    "C125_identical_refuted"
   ],
   "note": "The refuted theorems show where == is not identity."
  },
  {
   "property": "C126",
   "status": "proved",
   "theorems": [
    "C126_integers",
    "C126_floats",
    "C126_matrices",
    "C126_transforms",
    "C126_laws",
    "C126_inverse",
    "C126_transpose",
    "C126_identity_refuted"
   ],
   "note": "The refuted theorem shows that is_identity does not look at the second matrix."
  },
  {
   "property": "C127",
   "status": "proved",
   "theorems": [
    "C127_relation",
    "C127_points",
    "C127_vectors",
    "C127_normals",
    "C127_boxes",
    "C127_lists",
    "C127_two",
    "C127_rays",
    "C127_matrices",
    "C127_transforms",
    "C127_quotients",
    "C127_scale",
    "C127_division_refuted",
    "C127_scale_refuted"
   ],
   "note": "The refuted theorems show that the condition on divisors is needed."
  },
  {
   "property": "C128",
   "status": "proved",
   "theorems": [
    "C128_points",
    "C128_vectors",
    "C128_normals",
    "C128_face_forward",
    "C128_face_forward_normals",
    "C128_components",
    "C128_boxes",
    "C128_extents",
    "C128_division",
    "C128_length",
    "C128_matrices",
    "C128_ray_at",
    "C128_lerp",
    "C128_lerp_points",
    "C128_transform",
    "C128_round",
    "C128_limit_refuted"
   ],
   "note": "The refuted theorem shows that the bound is needed."
  },
  {
   "property": "C129",
   "status": "proved",
   "theorems": [
    "C129_whole",
    "C129_ends_iff",
    "C129_unlimited",
    "C129_next",
    "C129_finite_refuted"
   ],
   "note": "C129_finite_refuted refutes that iterating over a box with finite corners always ends."
  },
  {
   "property": "C13",
   "status": "proved",
   "theorems": [
    "C13_world_after_predirectives"
   ],
   "note": ""
  },
  {
   "property": "C130",
   "status": "proved",
   "theorems": [
    "C130_coordinates",
    "C130_normals",
    "C130_axis",
    "C130_frame",
    "C130_tiny_refuted",
    "C130_large_refuted"
   ],
   "note": "The refuted theorems show that the conditions are needed."
  },
  {
   "property": "C131",
   "status": "proved",
   "theorems": [
    "C131_text",
    "C131_text_gaps",
    "C131_text_all",
    "C131_tokens",
    "C131_tokens_gaps",
    "C131_parse",
    "C131_parse_tokens",
    "C131_longer_refuted"
   ],
   "note": "The looks are those counted for C89 to C91; this theorem shows that the record of them is complete. The refuted theorem shows that the condition on the lengths is needed."
  },
  {
   "property": "C132",
   "status": "proved",
   "theorems": [
    "C132_length",
    "C132_grows"
   ],
   "note": "In Rust k is 10 at present."
  },
  {
   "property": "C133",
   "status": "proved",
   "theorems": [
    "C133_points",
    "C133_shift",
    "C133_vectors",
    "C133_normals",
    "C133_diagonal",
    "C133_points_exact",
    "C133_vectors_exact",
    "C133_normals_exact",
    "C133_sides_exact",
    "C133_back",
    "C133_ray",
    "C133_far_refuted",
    "C133_distance_refuted"
   ],
   "note": "The refuted theorems show that the condition for returning is needed and that the claim does not extend to distances."
  },
  {
   "property": "C134",
   "status": "proved",
   "theorems": [
    "C134_dot",
    "C134_sum",
    "C134_distance",
    "C134_cross",
    "C134_n_dot",
    "C134_n_sum",
    "C134_n_cross",
    "C134_dot_refuted",
    "C134_sum_refuted"
   ],
   "note": "The refuted theorems show that the rounding errors cannot be left out."
  },
  {
   "property": "C135",
   "status": "proved",
   "theorems": [
    "C135_main",
    "C135_inverse",
    "C135_lines",
    "C135_read_back"
   ],
   "note": "The text of a single float is an argument."
  },
  {
   "property": "C136",
   "status": "proved",
   "theorems": [
    "C136_both",
    "C136_transform",
    "C136_exact_refuted"
   ],
   "note": "The refuted theorem shows that the rounding errors cannot be left out."
  },
  {
   "property": "C137",
   "status": "proved",
   "theorems": [
    "C137_panic",
    "C137_near",
    "C137_whole",
    "C137_order",
    "C137_wrapped",
    "C137_normals",
    "C137_nearest_refuted"
   ],
   "note": "The refuted theorem shows that the two rounding errors cannot be reduced to one."
  },
  {
   "property": "C138",
   "status": "proved",
   "theorems": [
    "C138_backwards",
    "C138_points",
    "C138_upper",
    "C138_backwards_refuted",
    "C138_half",
    "C138_between",
    "C138_inside",
    "C138_tiny_refuted",
    "C138_centre",
    "C138_overflow_refuted"
   ],
   "note": "The refuted theorems show that the conditions on t, on tiny end points and on overflow are needed."
  },
  {
   "property": "C139",
   "status": "proved",
   "theorems": [
    "C139_intersect",
    "C139_commutative",
    "C139_idempotent",
    "C139_associative",
    "C139_associative_refuted",
    "C139_absorb_union",
    "C139_absorb_intersect",
    "C139_absorb_intersect_refuted",
    "C139_distributes",
    "C139_distributes_union",
    "C139_common_point",
    "C139_one_by_one"
   ],
   "note": "The refuted theorems show that overlap is needed. Equality of boxes is equality of their sets of points, as in C32."
  },
  {
   "property": "C14",
   "status": "proved",
   "theorems": [
    "C14_nothing_after_closer"
   ],
   "note": ""
  },
  {
   "property": "C140",
   "status": "proved",
   "theorems": [
    "C140_int_points",
    "C140_int_twice",
    "C140_int_back",
    "C140_int_back_refuted",
    "C140_int_smaller_refuted",
    "C140_crossed",
    "C140_smaller",
    "C140_smaller_refuted",
    "C140_back",
    "C140_back_refuted"
   ],
   "note": "The refuted theorems show that the bounds must not cross, and that going there and back is not exact in floats."
  },
  {
   "property": "C141",
   "status": "proved",
   "theorems": [
    "C141_sums",
    "C141_points",
    "C141_scaling",
    "C141_dot",
    "C141_cross",
    "C141_lagrange",
    "C141_normals",
    "C141_cancel",
    "C141_cancel_refuted",
    "C141_zero",
    "C141_zero_refuted",
    "C141_face",
    "C141_face_refuted"
   ],
   "note": "The refuted theorems show that the laws that divide or compare fail without overflow checks."
  },
  {
   "property": "C142",
   "status": "proved",
   "theorems": [
    "C142_add",
    "C142_points",
    "C142_boxes",
    "C142_tests",
    "C142_measures",
    "C142_expand",
    "C142_expand_refuted",
    "C142_iter_refuted",
    "C142_float_inside",
    "C142_float_overlaps",
    "C142_float_refuted"
   ],
   "note": "The refuted theorems show what does not move along: expand that overflows, the iterator of a two-dimensional box, and differences in floats."
  },
  {
   "property": "C143",
   "status": "proved",
   "theorems": [
    "C143_mul",
    "C143_boxes",
    "C143_tests",
    "C143_points",
    "C143_vectors",
    "C143_measures",
    "C143_expand",
    "C143_offset",
    "C143_extent_refuted"
   ],
   "note": "The refuted theorem shows that the overflow checks are needed."
  },
  {
   "property": "C144",
   "status": "proved",
   "theorems": [
    "C144_boxes",
    "C144_tests",
    "C144_measures",
    "C144_vectors",
    "C144_expand",
    "C144_exclusive_refuted",
    "C144_dimension_refuted"
   ],
   "note": "The refuted theorems name the functions that are not symmetric."
  },
  {
   "property": "C15",
   "status": "partial",
   "theorems": [
    "C15_no_directive_lost_refuted",
    "C15_no_directive_lost_partial"
   ],
   "note": "The expected statement is false of the code; proved for the directives up to the first closer of any kind."
  },
  {
   "property": "C16",
   "status": "partial",
   "theorems": [
    "C16_closers_match_refuted",
    "C16_some_closer_partial",
    "C14_nothing_after_closer"
   ],
   "note": "The expected statement is false of the code; proved that exactly one closer of any kind is needed."
  },
  {
   "property": "C17",
   "status": "proved",
   "theorems": [
    "C17_world_needed",
    "C17_closer_needed"
   ],
   "note": ""
  },
  {
   "property": "C18",
   "status": "proved",
   "theorems": [
    "C18_number_arguments",
    "C18_in_result"
   ],
   "note": ""
  },
  {
   "property": "C19",
   "status": "proved",
   "theorems": [
    "C19_parameters_kept",
    "C19_parameters_kept_pre",
    "C19_in_result",
    "C19_nothing_invented"
   ],
   "note": ""
  },
  {
   "property": "C20",
   "status": "proved",
   "theorems": [
    "C20_stored_parameters_wf"
   ],
   "note": ""
  },
  {
   "property": "C21",
   "status": "partial",
   "theorems": [
    "C21_malformed_reported_refuted",
    "C21_malformed_reported_partial",
    "C21_dropped_silently",
    "C21_dropped_silently_pre"
   ],
   "note": "The expected statement is false of the code; the forms that are dropped silently are characterised exactly."
  },
  {
   "property": "C22",
   "status": "proved",
   "theorems": [
    "C22_positions"
   ],
   "note": ""
  },
  {
   "property": "C23",
   "status": "proved",
   "theorems": [
    "C23_three_component_empty",
    "C23_unknown_type_rejected"
   ],
   "note": ""
  },
  {
   "property": "C24",
   "status": "proved",
   "theorems": [
    "C24_print_parse",
    "C24_results_printable",
    "C24_reprint",
    "C24_any_blocks_refuted"
   ],
   "note": "The condition on blocks is needed: without it the round trip is refuted."
  },
  {
   "property": "C25",
   "status": "proved",
   "theorems": [
    "C25_eof_iff",
    "C25_eof_completable",
    "C25_empty_text"
   ],
   "note": ""
  },
  {
   "property": "C26",
   "status": "partial",
   "theorems": [
    "C26_bounded_depth_refuted",
    "C26_bounded_depth_blocks_refuted",
    "C26_depth_linear_partial"
   ],
   "note": "The expected statement is false of the code; proved that the depth is at most linear in the length; C96 says exactly what it is."
  },
  {
   "property": "C27",
   "status": "proved",
   "theorems": [
    "C27_concat",
    "C27_concat_panic"
   ],
   "note": ""
  },
  {
   "property": "C28",
   "status": "proved",
   "theorems": [
    "C28_lexical_errors",
    "C28_position",
    "C28_char"
   ],
   "note": ""
  },
  {
   "property": "C29",
   "status": "proved",
   "theorems": [
    "C29_syntax_errors",
    "C29_parse_errors",
    "C29_scene_or_error",
    "C29_positions",
    "C29_token"
   ],
   "note": ""
  },
  {
   "property": "C30",
   "status": "proved",
   "theorems": [
    "C30_pmin",
    "C30_pmax",
    "C30_empty",
    "C30_nan_first",
    "C30_nan_later"
   ],
   "note": ""
  },
  {
   "property": "C31",
   "status": "proved",
   "theorems": [
    "C31_new",
    "C31_new_order",
    "C31_new_pt"
   ],
   "note": ""
  },
  {
   "property": "C32",
   "status": "proved",
   "theorems": [
    "C32_union",
    "C32_commutative",
    "C32_associative",
    "C32_idempotent"
   ],
   "note": ""
  },
  {
   "property": "C33",
   "status": "proved",
   "theorems": [
    "C33_union_pt"
   ],
   "note": ""
  },
  {
   "property": "C34",
   "status": "partial",
   "theorems": [
    "C34_intersection_refuted",
    "C34_intersection_partial",
    "C34_gap"
   ],
   "note": "The expected statement is false of the code; proved when the boxes overlap, and the gap returned otherwise is characterised."
  },
  {
   "property": "C35",
   "status": "proved",
   "theorems": [
    "C35_overlaps",
    "C35_symmetric"
   ],
   "note": ""
  },
  {
   "property": "C36",
   "status": "proved",
   "theorems": [
    "C36_inside",
    "C36_exclusive",
    "C36_nan"
   ],
   "note": ""
  },
  {
   "property": "C37",
   "status": "proved",
   "theorems": [
    "C37_expand_float",
    "C37_expand_int",
    "C37_overflow",
    "C37_infinite_refuted"
   ],
   "note": "The condition that delta or the box is finite is needed: without it the statement is refuted."
  },
  {
   "property": "C38",
   "status": "proved",
   "theorems": [
    "C38_low_bits",
    "C38_bit",
    "C38_all_corners",
    "C38_corner_inside"
   ],
   "note": ""
  },
  {
   "property": "C39",
   "status": "proved",
   "theorems": [
    "C39_everything",
    "C39_union",
    "C39_intersect"
   ],
   "note": ""
  },
  {
   "property": "C40",
   "status": "proved",
   "theorems": [
    "C40_max_dimension",
    "C40_normal",
    "C40_maximum_extent",
    "C40_longest_axis"
   ],
   "note": ""
  },
  {
   "property": "C41",
   "status": "proved",
   "theorems": [
    "C41_offset",
    "C41_extent_refuted"
   ],
   "note": "Finite extents are needed: without them the statement is refuted."
  },
  {
   "property": "C42",
   "status": "proved",
   "theorems": [
    "C42_nonneg",
    "C42_monotone",
    "C42_int"
   ],
   "note": ""
  },
  {
   "property": "C43",
   "status": "proved",
   "theorems": [
    "C43_contains",
    "C43_centre_float",
    "C43_overflow_float"
   ],
   "note": ""
  },
  {
   "property": "C44",
   "status": "proved",
   "theorems": [
    "C44_lerp",
    "C44_point_lerp",
    "C44_box_lerp",
    "C44_inverts_offset"
   ],
   "note": ""
  },
  {
   "property": "C45",
   "status": "proved",
   "theorems": [
    "C45_iteration",
    "C45_only_sequence",
    "C45_stays_at_end"
   ],
   "note": ""
  },
  {
   "property": "C46",
   "status": "partial",
   "theorems": [
    "C46_lattice_refuted",
    "C46_lattice_partial",
    "C46_visited"
   ],
   "note": "The expected statement is false of the code; the points visited are characterised exactly."
  },
  {
   "property": "C48",
   "status": "partial",
   "theorems": [
    "C48_area_nonneg",
    "C48_area_monotone",
    "C48_volume_monotone",
    "C48_volume_cases",
    "C48_volume_nan_refuted"
   ],
   "note": "The expected statement is false of volume (NaN); the exact condition is proved."
  },
  {
   "property": "C50",
   "status": "proved",
   "theorems": [
    "C50_inverse_real",
    "C50_inverse_rational",
    "C50_inverse_involutive"
   ],
   "note": ""
  },
  {
   "property": "C51",
   "status": "proved",
   "theorems": [
    "C51_panics_real",
    "C51_panics_rational",
    "C51_first_panic_real",
    "C51_first_panic_rational",
    "C51_first_panic_float"
   ],
   "note": "Unreachability of the first panic holds in exact arithmetic; with NaN in f32 it is reachable."
  },
  {
   "property": "C52",
   "status": "proved",
   "theorems": [
    "C52_laws_real",
    "C52_product_real",
    "C52_laws_wrapping",
    "C52_unit_float"
   ],
   "note": ""
  },
  {
   "property": "C53",
   "status": "proved",
   "theorems": [
    "C53_transpose",
    "C53_product",
    "C53_sum",
    "C53_product_real"
   ],
   "note": ""
  },
  {
   "property": "C54",
   "status": "proved",
   "theorems": [
    "C54_dot",
    "C54_cross",
    "C54_len_sq",
    "C54_product_checked",
    "C54_product_wrapping",
    "C54_volume",
    "C54_area",
    "C54_small",
    "C54_small_box"
   ],
   "note": ""
  },
  {
   "property": "C55",
   "status": "proved",
   "theorems": [
    "C55_inverse",
    "C55_transpose",
    "C55_laws",
    "C55_new"
   ],
   "note": ""
  },
  {
   "property": "C56",
   "status": "proved",
   "theorems": [
    "C56_translate_float",
    "C56_translate_real",
    "C56_inverse_float",
    "C56_inverse_real"
   ],
   "note": ""
  },
  {
   "property": "C57",
   "status": "partial",
   "theorems": [
    "C57_scale_refuted",
    "C57_scale_zero"
   ],
   "note": "The expected statement is false of the code, for every choice of non-zero factors; the products are given exactly."
  },
  {
   "property": "C58",
   "status": "proved",
   "theorems": [
    "C58_has_scale",
    "C58_rotation",
    "C58_translation",
    "C58_identity"
   ],
   "note": ""
  },
  {
   "property": "C60",
   "status": "proved",
   "theorems": [
    "C60_cross",
    "C60_dot",
    "C60_dot_float",
    "C60_cross_float",
    "C60_normals"
   ],
   "note": ""
  },
  {
   "property": "C61",
   "status": "proved",
   "theorems": [
    "C61_real",
    "C61_float",
    "C61_normals"
   ],
   "note": ""
  },
  {
   "property": "C62",
   "status": "partial",
   "theorems": [
    "C62_divides_refuted",
    "C62_float_partial",
    "C62_int_partial"
   ],
   "note": "The expected statement is false of the code; the exact behaviour is proved. On i64 it panics for zero or, with checks, on overflow."
  },
  {
   "property": "C63",
   "status": "proved",
   "theorems": [
    "C63_frame",
    "C63_nonzero",
    "C63_handed"
   ],
   "note": ""
  },
  {
   "property": "C64",
   "status": "proved",
   "theorems": [
    "C64_index_panic",
    "C64_index",
    "C64_permute",
    "C64_permute_panic"
   ],
   "note": ""
  },
  {
   "property": "C65",
   "status": "proved",
   "theorems": [
    "C65_affine",
    "C65_at_zero_float"
   ],
   "note": ""
  },
  {
   "property": "C66",
   "status": "proved",
   "theorems": [
    "C66_scale"
   ],
   "note": ""
  },
  {
   "property": "C67",
   "status": "proved",
   "theorems": [
    "C67_keep",
    "C67_point2",
    "C67_point2_float"
   ],
   "note": ""
  },
  {
   "property": "C68",
   "status": "proved",
   "theorems": [
    "C68_floor_ceil"
   ],
   "note": ""
  },
  {
   "property": "C69",
   "status": "proved",
   "theorems": [
    "C69_point_min",
    "C69_point_max",
    "C69_vector_min",
    "C69_vector_max",
    "C69_normal_min",
    "C69_normal_max",
    "C69_vector_components",
    "C69_normal_components"
   ],
   "note": ""
  },
  {
   "property": "C70",
   "status": "proved",
   "theorems": [
    "C70_points",
    "C70_vectors",
    "C70_normals",
    "C70_point2_abs",
    "C70_machine_integers",
    "C70_formats",
    "C70_int_operations",
    "C70_int_division",
    "C70_float_operations"
   ],
   "note": ""
  },
  {
   "property": "C71",
   "status": "proved",
   "theorems": [
    "C71_length_real",
    "C71_length_float",
    "C71_length_int",
    "C71_unchecked_refuted",
    "C71_normals"
   ],
   "note": ""
  },
  {
   "property": "C72",
   "status": "proved",
   "theorems": [
    "C72_identity_float",
    "C72_identity_real",
    "C72_identity_vectors"
   ],
   "note": ""
  },
  {
   "property": "C73",
   "status": "proved",
   "theorems": [
    "C73_block",
    "C73_linear",
    "C73_product",
    "C73_undo",
    "C73_undo_inverse",
    "C73_rotation",
    "C73_translate",
    "C73_translate_float",
    "C73_scale",
    "C73_scale_float"
   ],
   "note": ""
  },
  {
   "property": "C74",
   "status": "proved",
   "theorems": [
    "C74_new_infinite",
    "C74_unbounded",
    "C74_no_differentials"
   ],
   "note": ""
  },
  {
   "property": "C75",
   "status": "proved",
   "theorems": [
    "C75_inverse",
    "C75_main"
   ],
   "note": ""
  },
  {
   "property": "C76",
   "status": "proved",
   "theorems": [
    "C76_translate",
    "C76_scale",
    "C76_scale_zero"
   ],
   "note": ""
  },
  {
   "property": "C77",
   "status": "partial",
   "theorems": [
    "C77_position_refuted",
    "C77_position_partial"
   ],
   "note": "The expected statement is false of the code; proved which messages lack a position."
  },
  {
   "property": "C78",
   "status": "proved",
   "theorems": [
    "C78_literal_nearest",
    "C78_token_nearest",
    "C78_closest",
    "C78_exact",
    "C78_every_float",
    "C78_spelling",
    "C78_monotone",
    "C78_overflow",
    "C78_int"
   ],
   "note": ""
  },
  {
   "property": "C79",
   "status": "partial",
   "theorems": [
    "C79_exponent_nearest_refuted",
    "C79_not_nan_refuted",
    "C79_no_overflow_refuted",
    "C79_no_underflow_refuted",
    "C79_error_partial",
    "C79_exact_factors_partial"
   ],
   "note": "The expected statement is false of the code; proved the error bound inside the range and exactness when both factors are floats."
  },
  {
   "property": "C80",
   "status": "proved",
   "theorems": [
    "C80_expressible",
    "C80_without_nan",
    "C80_contents"
   ],
   "note": ""
  },
  {
   "property": "C81",
   "status": "proved",
   "theorems": [
    "C81_display",
    "C81_read_back",
    "C81_one_position",
    "C81_distinct",
    "C81_text"
   ],
   "note": "How {:?} writes a character of a string and a float is an argument; telling messages apart needs that these are injective."
  },
  {
   "property": "C82",
   "status": "proved",
   "theorems": [
    "C82_dot",
    "C82_len_sq",
    "C82_len",
    "C82_cross",
    "C82_transform",
    "C82_product",
    "C82_lerp",
    "C82_p_lerp",
    "C82_b_lerp",
    "C82_ray",
    "C82_volume",
    "C82_surface",
    "C82_units"
   ],
   "note": "Normals: C60_normals and C71_normals reduce them to vectors."
  },
  {
   "property": "C83",
   "status": "proved",
   "theorems": [
    "C83_centre",
    "C83_radius",
    "C83_contains",
    "C83_slack_refuted"
   ],
   "note": "The refuted theorem shows that the slack is needed."
  },
  {
   "property": "C84",
   "status": "proved",
   "theorems": [
    "C84_frame"
   ],
   "note": ""
  },
  {
   "property": "C85",
   "status": "partial",
   "theorems": [
    "C85_final_refuted",
    "C85_final_partial",
    "C85_final_text_partial",
    "C85_success_final",
    "C85_completable",
    "C85_viable_partial"
   ],
   "note": "The expected statement is false of the code; it is proved for all cuts that are not between two numbers."
  },
  {
   "property": "C86",
   "status": "proved",
   "theorems": [
    "C86_monomial",
    "C86_powers_of_two",
    "C86_scale",
    "C86_translate",
    "C86_large_translate_refuted",
    "C86_small_entry_refuted"
   ],
   "note": "The two refuted theorems show that the limits on translations and on entries are needed."
  },
  {
   "property": "C87",
   "status": "proved",
   "theorems": [
    "C87_has_scale",
    "C87_translate",
    "C87_not_finite"
   ],
   "note": ""
  },
  {
   "property": "C88",
   "status": "proved",
   "theorems": [
    "C88_translations",
    "C88_scalings"
   ],
   "note": "Equality of matrices is the == of floats, entry by entry."
  },
  {
   "property": "C89",
   "status": "proved",
   "theorems": [
    "C89_same",
    "C89_looks",
    "C89_tokens"
   ],
   "note": "C89_same: the program that keeps the record computes what the model computes."
  },
  {
   "property": "C90",
   "status": "proved",
   "theorems": [
    "C90_same",
    "C90_looks",
    "C90_closing_unbounded"
   ],
   "note": "C90_same: the program that keeps the record computes what the model computes."
  },
  {
   "property": "C91",
   "status": "proved",
   "theorems": [
    "C91_same",
    "C91_linear"
   ],
   "note": ""
  },
  {
   "property": "C92",
   "status": "proved",
   "theorems": [
    "C92_one",
    "C92_identifier",
    "C92_many",
    "C92_n",
    "C92_n_zero",
    "C92_list",
    "C92_list_of_n",
    "C92_one_or_list"
   ],
   "note": ""
  },
  {
   "property": "C93",
   "status": "proved",
   "theorems": [
    "C93_spectrum",
    "C93_param"
   ],
   "note": ""
  },
  {
   "property": "C94",
   "status": "proved",
   "theorems": [
    "C94_same_shape",
    "C94_same_expressions",
    "C94_same_tokens"
   ],
   "note": ""
  },
  {
   "property": "C95",
   "status": "proved",
   "theorems": [
    "C95_tables",
    "C95_ascii"
   ],
   "note": ""
  },
  {
   "property": "C96",
   "status": "proved",
   "theorems": [
    "C96_threshold",
    "C96_exact",
    "C96_tokenizer",
    "C96_parser"
   ],
   "note": ""
  },
  {
   "property": "C97",
   "status": "proved",
   "theorems": [
    "C97_positions",
    "C97_below"
   ],
   "note": ""
  },
  {
   "property": "C98",
   "status": "proved",
   "theorems": [
    "C98_header",
    "C98_tokens",
    "C98_asked",
    "C98_quiet_needed_refuted"
   ],
   "note": "The refuted theorem shows that the condition on the second text is needed."
  },
  {
   "property": "C99",
   "status": "proved",
   "theorems": [
    "C99_body",
    "C99_tokens"
   ],
   "note": ""
  }
 ]
}
