"""Writes MANIFEST.json."""
import json, os
claims = []
def c(prop, status, theorems, note):
    claims.append({"property": prop, "status": status, "theorems": theorems.split(), "note": note})

c("C01", "proved", "C01_parse_ends", "Every outcome of the model is a result or the overflow panic; loops never run out of fuel.")
c("C02", "proved", "C02_panic_iff C02_no_e_no_panic C02_release_no_panic", "")
c("C03", "proved", "C03_profiles_agree", "")
c("C04", "proved", "C04_tokenize_grammar C04_unambiguous C04_white_space C04_white_space_table C04_characters C04_classes", "Unicode tables abstracted by cc_ok.")
c("C05", "proved", "C05_positions", "")
c("C06", "proved", "C06_crlf C06_crlf_back C06_all_texts_refuted", "For texts without CR LF pairs; the unrestricted statement is refuted.")
c("C08", "proved", "C08_literal C08_literal_first C08_literal_inside C08_escapes C08_unterminated", "")
c("C09", "proved", "C09_in_range C09_in_range_first C09_out_of_range C09_every_integer", "")
c("C10", "partial", "C10_exponent_refuted C10_exponent_partial C10_exponent_exact", "The expected statement is false of the code; the exact behaviour is proved.")
c("C11", "proved", "C11_lexical_error C11_lexical_error_after", "")
c("C27", "proved", "C27_concat C27_concat_panic", "")
c("C07", "proved", "C07_same_kinds C07_same_kinds_text C07_layout_inserted C07_between_tokens", "Messages of errors are not compared. Layout insertion is stated for texts without carriage returns.")
c("C12", "proved", "C12_parse_tokens_grammar C12_parse_grammar C12_unambiguous", "")
c("C13", "proved", "C13_world_after_predirectives", "")
c("C14", "proved", "C14_nothing_after_closer", "")
c("C15", "partial", "C15_no_directive_lost_refuted C15_no_directive_lost_partial", "The expected statement is false of the code; proved for the directives up to the first closer of any kind.")
c("C16", "partial", "C16_closers_match_refuted C16_some_closer_partial C14_nothing_after_closer", "The expected statement is false of the code; proved that exactly one closer of any kind is needed.")
c("C17", "proved", "C17_world_needed C17_closer_needed", "")
c("C18", "proved", "C18_number_arguments C18_in_result", "")
c("C19", "proved", "C19_parameters_kept C19_parameters_kept_pre C19_in_result C19_nothing_invented", "")
c("C20", "proved", "C20_stored_parameters_wf", "")
c("C21", "partial", "C21_malformed_reported_refuted C21_malformed_reported_partial C21_dropped_silently C21_dropped_silently_pre", "The expected statement is false of the code; the forms that are dropped silently are characterised exactly.")
c("C22", "proved", "C22_positions", "")
c("C23", "proved", "C23_three_component_empty C23_unknown_type_rejected", "")
c("C25", "proved", "C25_eof_iff C25_eof_completable C25_empty_text", "")
c("C24", "proved", "C24_print_parse C24_results_printable C24_reprint C24_any_blocks_refuted", "The condition on blocks is needed: without it the round trip is refuted.")
c("C26", "partial", "C26_bounded_depth_refuted C26_bounded_depth_blocks_refuted C26_depth_linear_partial", "The expected statement is false of the code; proved that the depth is at most linear in the length; C96 says exactly what it is.")
c("C28", "proved", "C28_lexical_errors C28_position C28_char", "")
c("C29", "proved", "C29_syntax_errors C29_parse_errors C29_scene_or_error C29_positions C29_token", "")
c("C77", "partial", "C77_position_refuted C77_position_partial", "The expected statement is false of the code; proved which messages lack a position.")
c("C30", "proved", "C30_pmin C30_pmax C30_empty C30_nan_first C30_nan_later", "")
c("C31", "proved", "C31_new C31_new_order C31_new_pt", "")
c("C32", "proved", "C32_union C32_commutative C32_associative C32_idempotent", "")
c("C33", "proved", "C33_union_pt", "")
c("C34", "partial", "C34_intersection_refuted C34_intersection_partial C34_gap", "The expected statement is false of the code; proved when the boxes overlap, and the gap returned otherwise is characterised.")
c("C35", "proved", "C35_overlaps C35_symmetric", "")
c("C36", "proved", "C36_inside C36_exclusive C36_nan", "")
c("C38", "proved", "C38_low_bits C38_bit C38_all_corners C38_corner_inside", "")
c("C39", "proved", "C39_everything C39_union C39_intersect", "")
c("C40", "proved", "C40_max_dimension C40_normal C40_maximum_extent C40_longest_axis", "")
c("C69", "proved", "C69_point_min C69_point_max C69_vector_min C69_vector_max C69_normal_min C69_normal_max C69_vector_components C69_normal_components", "")
c("C37", "proved", "C37_expand_float C37_expand_int C37_overflow C37_infinite_refuted", "The condition that delta or the box is finite is needed: without it the statement is refuted.")
c("C41", "proved", "C41_offset C41_extent_refuted", "Finite extents are needed: without them the statement is refuted.")
c("C42", "proved", "C42_nonneg C42_monotone C42_int", "")
c("C43", "proved", "C43_contains C43_centre_float C43_overflow_float", "")
c("C44", "proved", "C44_lerp C44_point_lerp C44_box_lerp C44_inverts_offset", "")
c("C45", "proved", "C45_iteration C45_only_sequence C45_stays_at_end", "")
c("C46", "partial", "C46_lattice_refuted C46_lattice_partial C46_visited", "The expected statement is false of the code; the points visited are characterised exactly.")
c("C50", "proved", "C50_inverse_real C50_inverse_rational C50_inverse_involutive", "")
c("C51", "proved", "C51_panics_real C51_panics_rational C51_first_panic_real C51_first_panic_rational C51_first_panic_float", "Unreachability of the first panic holds in exact arithmetic; with NaN in f32 it is reachable.")
c("C52", "proved", "C52_laws_real C52_product_real C52_laws_wrapping C52_unit_float", "")
c("C53", "proved", "C53_transpose C53_product C53_sum C53_product_real", "")
c("C54", "proved", "C54_dot C54_cross C54_len_sq C54_product_checked C54_product_wrapping C54_volume C54_area C54_small C54_small_box", "")
c("C55", "proved", "C55_inverse C55_transpose C55_laws C55_new", "")
c("C56", "proved", "C56_translate_float C56_translate_real C56_inverse_float C56_inverse_real", "")
c("C57", "partial", "C57_scale_refuted C57_scale_zero", "The expected statement is false of the code, for every choice of non-zero factors; the products are given exactly.")
c("C58", "proved", "C58_has_scale C58_rotation C58_translation C58_identity", "")
c("C60", "proved", "C60_cross C60_dot C60_dot_float C60_cross_float C60_normals", "")
c("C61", "proved", "C61_real C61_float C61_normals", "")
c("C62", "partial", "C62_divides_refuted C62_float_partial C62_int_partial", "The expected statement is false of the code; the exact behaviour is proved. On i64 it panics for zero or, with checks, on overflow.")
c("C63", "proved", "C63_frame C63_nonzero C63_handed", "")
c("C64", "proved", "C64_index_panic C64_index C64_permute C64_permute_panic", "")
c("C65", "proved", "C65_affine C65_at_zero_float", "")
c("C66", "proved", "C66_scale", "")
c("C67", "proved", "C67_keep C67_point2 C67_point2_float", "")
c("C68", "proved", "C68_floor_ceil", "")
c("C48", "partial", "C48_area_nonneg C48_area_monotone C48_volume_monotone C48_volume_cases C48_volume_nan_refuted", "The expected statement is false of volume (NaN); the exact condition is proved.")
c("C70", "proved", "C70_points C70_vectors C70_normals C70_point2_abs C70_machine_integers C70_formats C70_int_operations C70_int_division C70_float_operations", "")
c("C71", "proved", "C71_length_real C71_length_float C71_length_int C71_unchecked_refuted C71_normals", "")
c("C72", "proved", "C72_identity_float C72_identity_real C72_identity_vectors", "")
c("C73", "proved", "C73_block C73_linear C73_product C73_undo C73_undo_inverse C73_rotation C73_translate C73_translate_float C73_scale C73_scale_float", "")
c("C74", "proved", "C74_new_infinite C74_unbounded C74_no_differentials", "")
c("C75", "proved", "C75_inverse C75_main", "")
c("C76", "proved", "C76_translate C76_scale C76_scale_zero", "")
c("C78", "proved", "C78_literal_nearest C78_token_nearest C78_closest C78_exact C78_every_float C78_spelling C78_monotone C78_overflow C78_int", "")
c("C79", "partial", "C79_exponent_nearest_refuted C79_not_nan_refuted C79_no_overflow_refuted C79_no_underflow_refuted C79_error_partial C79_exact_factors_partial", "The expected statement is false of the code; proved the error bound inside the range and exactness when both factors are floats.")
c("C80", "proved", "C80_expressible C80_without_nan C80_contents", "")
c("C81", "proved", "C81_display C81_read_back C81_one_position C81_distinct C81_text", "How {:?} writes a character of a string and a float is an argument; telling messages apart needs that these are injective.")
c("C82", "proved", "C82_dot C82_len_sq C82_len C82_cross C82_transform C82_product C82_lerp C82_p_lerp C82_b_lerp C82_ray C82_volume C82_surface C82_units", "Normals: C60_normals and C71_normals reduce them to vectors.")
c("C83", "proved", "C83_centre C83_radius C83_contains C83_slack_refuted", "The refuted theorem shows that the slack is needed.")
c("C84", "proved", "C84_frame", "")
c("C85", "partial", "C85_final_refuted C85_final_partial C85_final_text_partial C85_success_final C85_completable C85_viable_partial", "The expected statement is false of the code; it is proved for all cuts that are not between two numbers.")
c("C86", "proved", "C86_monomial C86_powers_of_two C86_scale C86_translate C86_large_translate_refuted C86_small_entry_refuted", "The two refuted theorems show that the limits on translations and on entries are needed.")
c("C87", "proved", "C87_has_scale C87_translate C87_not_finite", "")
c("C88", "proved", "C88_translations C88_scalings", "Equality of matrices is the == of floats, entry by entry.")
c("C89", "proved", "C89_same C89_looks C89_tokens", "C89_same: the program that keeps the record computes what the model computes.")
c("C90", "proved", "C90_same C90_looks C90_closing_unbounded", "C90_same: the program that keeps the record computes what the model computes.")
c("C91", "proved", "C91_same C91_linear", "")
c("C92", "proved", "C92_one C92_identifier C92_many C92_n C92_n_zero C92_list C92_list_of_n C92_one_or_list", "")
c("C93", "proved", "C93_spectrum C93_param", "")
c("C94", "proved", "C94_same_shape C94_same_expressions C94_same_tokens", "")
c("C95", "proved", "C95_tables C95_ascii", "")
c("C96", "proved", "C96_threshold C96_exact C96_tokenizer C96_parser", "")
c("C97", "proved", "C97_positions C97_below", "")
c("C98", "proved", "C98_header C98_tokens C98_asked C98_quiet_needed_refuted", "The refuted theorem shows that the condition on the second text is needed.")
c("C99", "proved", "C99_body C99_tokens", "")
c("C100", "partial", "C100_never_late C100_never_late_text C100_first_wrong_refuted C100_first_wrong_partial C100_beginnings", "The place is never too late; it can be too early for numbers and for counts.")
c("C101", "proved", "C101_size C101_tokens C101_scene", "")
c("C102", "partial", "C102_equal_rows_refuted C102_equal_columns_refuted C102_regular_refuted C102_zero_row_refuted C102_result_partial C102_infinity", "The expected statement is false of the code in both directions; proved what a result without NaN does say about the matrix.")
c("C103", "partial", "C103_same_refuted C103_box_refuted C103_between_partial C103_monotone_refuted", "The expected statement is false of the code; proved up to four rounding errors.")
c("C104", "proved", "C104_ends C104_finite C104_order C104_negation C104_sign C104_points C104_boxes", "")
c("C105", "proved", "C105_formula C105_error C105_zero C105_zero_overflow_refuted C105_one C105_one_near C105_one_exact_refuted", "The refuted theorems show that the conditions of C105_zero and C105_one are needed.")
c("C106", "partial", "C106_near_partial C106_exact_refuted", "Exact return is false of the code; proved up to a stated number of rounding errors.")
c("C107", "proved", "C107_new C107_union_pt C107_union C107_intersect C107_added_point C107_added_box C107_kept_point C107_kept_box C107_order_refuted C107_union_order_refuted C107_overlaps C107_inside", "The refuted theorems show that with NaN the order of the arguments matters.")
c("C108", "proved", "C108_points C108_order C108_boxes C108_split C108_nan", "")
c("C109", "proved", "C109_inverse_accuracy C109_panic C109_transform C109_any_invertible_refuted", "The refuted theorem shows that the condition on the size of the inverse is needed.")
c("C110", "proved", "C110_alike C110_texts C110_numbers C110_names C110_parameters C110_accepted", "")
c("C111", "proved", "C111_inverse_twice C111_vector", "")
c("C112", "proved", "C112_signs C112_negated C112_equal C112_nan_refuted", "The refuted theorem shows that the condition on NaN is needed.")
c("C113", "proved", "C113_ray C113_box_on_ray C113_offset C113_expand C113_diagonal C113_length C113_dot C113_transform C113_lerp", "")
c("C114", "proved", "C114_vectors C114_products C114_points C114_rays C114_boxes C114_box_measures C114_matrices C114_exclusive_refuted C114_radius_refuted C114_nan_refuted", "The refuted theorems are the exceptions named in the statement.")
c("C115", "proved", "C115_blocks C115_last_row C115_far_refuted", "C115_far_refuted shows that the bound on the entries is needed. That results may contain NaN is C86_small_entry_refuted.")
c("C116", "proved", "C116_order C116_sums C116_expand C116_ratios C116_products C116_length C116_measures C116_multiples C116_lerp C116_transform C116_centre C116_coordinate_system C116_face_forward C116_tiny_refuted", "C116_tiny_refuted shows that the condition on small products is needed.")
c("C117", "proved", "C117_sums C117_products C117_length C117_measures C117_sphere C117_multiples C117_matrices C117_larger_refuted", "C117_larger_refuted shows that the bounds cannot be raised.")
c("C118", "proved", "C118_points C118_vectors C118_length C118_products C118_matrices C118_ray C118_offset C118_everything C118_coordinate_system", "")
c("C119", "proved", "C119_order C119_swap C119_texts C119_exactly C119_same_type_refuted C119_anywhere_refuted", "The refuted theorems show that parameters of the same type may not change places, and that what looks like two parameters is not two where the name of the shape is missing.")
c("C120", "proved", "C120_points C120_vectors C120_normals C120_boxes C120_dimension C120_extent C120_components C120_swap C120_cross C120_cross_swap C120_integers C120_lerp C120_floor C120_box_lerp C120_rays C120_differential C120_sphere C120_add C120_mul C120_transpose C120_translate C120_scale C120_transform C120_has_scale C120_dot_refuted C120_volume_refuted C120_area_refuted C120_tie_refuted C120_overflow_refuted C120_scale_refuted C120_frame_refuted", "The refuted theorems show what does depend on the names: sums and products of floats under other renamings, the surface area, ties of the longest axis, overflow checks, the second matrix of scale (its last row has the factor of Z in it), the coordinate system.")
c("C121", "proved", "C121_same_scene C121_closer_in C121_longer C121_tokens C121_token_lists C121_whole_refuted C121_longer_refuted C121_panic_refuted", "The refuted theorems show that the conditions are needed.")
c("C122", "proved", "C122_statements C122_same_scene C122_same_statements C122_tokens C122_meaning C122_spelling_refuted C122_dropped_refuted C122_order_refuted", "The refuted theorems list what is lost.")
c("C123", "proved", "C123_meaning C123_points C123_abs C123_vectors C123_v2_div C123_normals C123_boxes C123_area C123_offset C123_offset_inside C123_matrices C123_division C123_unchecked C123_unchecked_offset C123_inf_offset_refuted C123_unchecked_measure_refuted C123_unchecked_extent_refuted C123_unchecked_expand_refuted", "The refuted theorems show what goes wrong without checks.")
c("C124", "proved", "C124_associative C124_left C124_right C124_sum C124_successive C124_associative_refuted C124_left_refuted C124_successive_refuted", "The refuted theorems show that the laws are not exact.")
c("C125", "proved", "C125_paths C125_scenes C125_symmetric C125_transitive C125_self C125_literals C125_tokens C125_errors C125_error_laws C125_results C125_always_self_refuted C125_identical_refuted", "The refuted theorems show where == is not identity.")
c("C126", "proved", "C126_integers C126_floats C126_matrices C126_transforms C126_laws C126_inverse C126_transpose C126_identity_refuted", "The refuted theorem shows that is_identity does not look at the second matrix.")
c("C127", "proved", "C127_relation C127_points C127_vectors C127_normals C127_boxes C127_lists C127_two C127_rays C127_matrices C127_transforms C127_quotients C127_scale C127_division_refuted C127_scale_refuted", "The refuted theorems show that the condition on divisors is needed.")
c("C128", "proved", "C128_points C128_vectors C128_normals C128_face_forward C128_face_forward_normals C128_components C128_boxes C128_extents C128_division C128_length C128_matrices C128_ray_at C128_lerp C128_lerp_points C128_transform C128_round C128_limit_refuted", "The refuted theorem shows that the bound is needed.")
c("C129", "proved", "C129_whole C129_ends_iff C129_unlimited C129_next C129_finite_refuted", "C129_finite_refuted refutes that iterating over a box with finite corners always ends.")
c("C130", "proved", "C130_coordinates C130_normals C130_axis C130_frame C130_tiny_refuted C130_large_refuted", "The refuted theorems show that the conditions are needed.")
c("C131", "proved", "C131_text C131_text_gaps C131_text_all C131_tokens C131_tokens_gaps C131_parse C131_parse_tokens C131_longer_refuted", "The looks are those counted for C89 to C91; this theorem shows that the record of them is complete. The refuted theorem shows that the condition on the lengths is needed.")
c("C132", "proved", "C132_length C132_grows", "In Rust k is 10 at present.")
c("C133", "proved", "C133_points C133_shift C133_vectors C133_normals C133_diagonal C133_points_exact C133_vectors_exact C133_normals_exact C133_sides_exact C133_back C133_ray C133_far_refuted C133_distance_refuted", "The refuted theorems show that the condition for returning is needed and that the claim does not extend to distances.")
c("C134", "proved", "C134_dot C134_sum C134_distance C134_cross C134_n_dot C134_n_sum C134_n_cross C134_dot_refuted C134_sum_refuted", "The refuted theorems show that the rounding errors cannot be left out.")
c("C135", "proved", "C135_main C135_inverse C135_lines C135_read_back", "The text of a single float is an argument.")
c("C136", "proved", "C136_both C136_transform C136_exact_refuted", "The refuted theorem shows that the rounding errors cannot be left out.")
c("C137", "proved", "C137_panic C137_near C137_whole C137_order C137_wrapped C137_normals C137_nearest_refuted", "The refuted theorem shows that the two rounding errors cannot be reduced to one.")
c("C138", "proved", "C138_backwards C138_points C138_upper C138_backwards_refuted C138_half C138_between C138_inside C138_tiny_refuted C138_centre C138_overflow_refuted", "The refuted theorems show that the conditions on t, on tiny end points and on overflow are needed.")
c("C139", "proved", "C139_intersect C139_commutative C139_idempotent C139_associative C139_associative_refuted C139_absorb_union C139_absorb_intersect C139_absorb_intersect_refuted C139_distributes C139_distributes_union C139_common_point C139_one_by_one", "The refuted theorems show that overlap is needed. Equality of boxes is equality of their sets of points, as in C32.")
c("C140", "proved", "C140_int_points C140_int_twice C140_int_back C140_int_back_refuted C140_int_smaller_refuted C140_crossed C140_smaller C140_smaller_refuted C140_back C140_back_refuted", "The refuted theorems show that the bounds must not cross, and that going there and back is not exact in floats.")
c("C141", "proved", "C141_sums C141_points C141_scaling C141_dot C141_cross C141_lagrange C141_normals C141_cancel C141_cancel_refuted C141_zero C141_zero_refuted C141_face C141_face_refuted", "The refuted theorems show that the laws that divide or compare fail without overflow checks.")
c("C142", "proved", "C142_add C142_points C142_boxes C142_tests C142_measures C142_expand C142_expand_refuted C142_iter_refuted C142_float_inside C142_float_overlaps C142_float_refuted", "The refuted theorems show what does not move along: expand that overflows, the iterator of a two-dimensional box, and differences in floats.")
c("C143", "proved", "C143_mul C143_boxes C143_tests C143_points C143_vectors C143_measures C143_expand C143_offset C143_extent_refuted", "The refuted theorem shows that the overflow checks are needed.")
c("C144", "proved", "C144_boxes C144_tests C144_measures C144_vectors C144_expand C144_exclusive_refuted C144_dimension_refuted", "The refuted theorems name the functions that are not symmetric.")
claims.sort(key=lambda x: x["property"])

here = os.path.dirname(os.path.abspath(__file__))
with open(os.path.join(here, "..", "MANIFEST.json"), "w") as f:
    json.dump({"claims": claims}, f, indent=1); f.write("\n")
