# Formal model of pbrtrs in Rocq (Coq 8.16.1)

The model covers all of `src/parser.rs` (without its tests), all of `src/core/*.rs`, and the one computation of
`src/bin/pbrt.rs`. 

## Layout (rocq/theories)

| files | content |
|---|---|
| `Base.v` | the outcome type (`Done`/`Panic`/`OutOfFuel`), Rust `Result`, state monad, machine integers |
| `TokModel.v` | model of the tokenizer (`src/parser.rs` 6-34, 195-520) |
| `ParModel.v` | model of the parser (`src/parser.rs` 36-193, 213-261, 522-1362) |
| `DepthModel.v` | the same recursive functions on a stack of bounded depth |
| `TraceModel.v` | the same functions, recording the index at every call of `peek`, `next` and `pos` |
| `Elem.v`, `FloatInst.v`, `ExactInst.v` | the numeric types: i64 with and without overflow checks; f32 and f64 (Flocq); exact reals and rationals |
| `FloatLit.v` | the parser's floats as IEEE f32 and f64 |
| `GeoModel.v`, `MatModel.v` | model of `src/core/*.rs` |
| `MainModel.v` | `src/bin/pbrt.rs` and the text that `{:#?}` writes for a matrix (layout of current Rust: a comma after the last entry) |
| `EqModel.v` | derived `PartialEq` of tokens, scenes, errors and the types of `src/core` |
| `ModelTests.v` | the 36 unit tests of the program, run on the model |
| `LexSpec.v`, `FlipSpec.v`, `GrowSpec.v`, `RingSpec.v`, `ShiftSpec.v`, `SceneSpec.v`, `LexErrSpec.v`, `SynErrSpec.v`, `ErrSpec.v`, `StableSpec.v`, `SceneObs.v`, `PrintSpec.v`, `DecSpec.v`, `LooksSpec.v`, `BuildSpec.v`, `StackSpec.v`, `MoveSpec.v`, `ViableSpec.v`, `SizeSpec.v`, `ValueSpec.v`, `RenderSpec.v`, `LikeSpec.v`, `EqSpec.v` | specification of texts, token lists and scenes (no reference to functions of the model, except that `ValueSpec.v` names the six functions each of which reads one value) |
| `GeoSpec.v`, `ArithSpec.v`, `MatSpec.v`, `IterSpec.v`, `OpsSpec.v`, `FloatErrSpec.v`, `RaySpec.v`, `ManySpec.v`, `SignSpec.v`, `MirSpec.v`, `UnitSpec.v`, `MeetSpec.v`, `RangeSpec.v`, `NanSpec.v`, `ReorderSpec.v`, `AxesSpec.v`, `CutSpec.v`, `RememberSpec.v`, `ChkSpec.v`, `LawSpec.v`, `ZeroSpec.v`, `WholeSpec.v`, `LenSpec.v`, `SeenSpec.v`, `NearSpec.v`, `EuclidSpec.v`, `MainSpec.v` | specification vocabulary of the geometry |
| `*Proofs.v`, `*Thms.v`, `SceneProps.v`, `DecText.v`, `DecConv.v`, `DecExp.v`, `DecProps.v`, `TransVec.v`, `FloatCore.v`, `FloatErr.v`, `FloatSphere.v`, `FloatFrame.v`, `FloatThird.v`, `FloatErrEx.v`, `FloatInv.v`, `FloatScale.v`, `FloatCompose.v`, `InvFloatEx.v`, `FloatLerp.v`, `FloatRay.v`, `FloatNan.v`, `BoxNan.v`, `ViableText.v`, `GaussReal.v`, `FloatGauss.v`, `GaussEx.v`, `FloatBack.v`, `FloatSign.v`, `SignEx.v`, `FloatMono.v`, `FloatMirror.v`, `FloatBlocks.v`, `FloatUnit.v`, `FloatRange.v`, `FloatNanOps.v`, `FloatScaleNan.v`, `ReorderProofs.v`, `FloatAxes.v`, `CutProofs.v`, `RememberProofs.v`, `ChkProofs.v`, `FloatLaws.v`, `FloatZero.v`, `FloatWhole.v`, `FloatIter.v`, `FloatLen.v`, `Seen.v`, `SeenThms.v`, `MsgProofs.v`, `FloatNear.v`, `FloatEuclid.v`, `FloatResid.v`, `IntLen.v`, `FloatHalf.v`, `BoxMeet.v`, `BoxShrink.v`, `IntRing.v`, `IntShift.v`, `IntGrow.v`, `IntFlip.v`, `TraceCore.v`, `LooksTok.v`, `LooksPar.v`, `Props*Lemmas.v` | proofs |
| `PropsLex.v`, `PropsScene.v`, `PropsRound.v`, `PropsErr.v`, `PropsStable.v`, `PropsLooks.v`, `PropsValue.v`, `PropsBuild.v`, `PropsStack.v`, `PropsMove.v`, `PropsLike.v`, `PropsViable.v`, `PropsRender.v`, `PropsDec.v`, `PropsBox.v`, `PropsGeo.v`, `PropsMat.v`, `PropsOps.v`, `PropsFloatErr.v`, `PropsInvFloat.v`, `PropsLerp.v`, `PropsMany.v`, `PropsGauss.v`, `PropsBack.v`, `PropsSign.v`, `PropsMono.v`, `PropsMirror.v`, `PropsBlocks.v`, `PropsUnit.v`, `PropsRange.v`, `PropsNan.v`, `PropsReorder.v`, `PropsAxes.v`, `PropsCut.v`, `PropsRemember.v`, `PropsChk.v`, `PropsLaws.v`, `PropsEq.v`, `PropsZero.v`, `PropsWhole.v`, `PropsLen.v`, `PropsSeen.v`, `PropsMsg.v`, `PropsNear.v`, `PropsEuclid.v`, `PropsMain.v`, `PropsResid.v`, `PropsIntLen.v`, `PropsHalf.v`, `PropsMeet.v`, `PropsShrink.v`, `PropsRing.v`, `PropsShift.v`, `PropsGrow.v`, `PropsFlip.v` | the property theorems only, each closed by `exact`, followed by `Print Assumptions` and an `Example` |

`tools/gen_properties.py` and `tools/gen_manifest.py` write `properties.jsonl` and `MANIFEST.json`;
`tools/assumptions.py` prints the table of assumptions below; `tools/seed.py` tests the theorems against wrong programs.

## Modelling decisions

* A Rust function `fn f(&mut self, ..) -> Result<A, E>` becomes a Gallina function
  `S -> out (Result A E * S)`. The new state is returned also with an `Err`, because
  `parse_param_lists` swallows errors and continues from the state they leave behind.
  `out` has the constructors `Done`, `Panic` (a Rust panic) and `OutOfFuel`
  (a loop of the model ran out of fuel; theorem C01 shows it never happens from `parse`).
* `Vec<char>`/`Vec<Token>` are lists and `index` is a `nat`; indexing is `nth_error`, with `None` = `Panic`.
* A `char` is its code point (`N`). `char::is_whitespace` is the table of Unicode's White_Space (checked against a list of
  the code points, C04). `char::is_numeric` and `is_alphabetic` are the fields of a record `CharClass` over which every theorem quantifies. Hypotheses on it are only: the ASCII part is the real one,
  and that white space is neither numeric nor alphabetic.
* Floats in the *parser* are a type `F` with a record of operations `FloatOps` (decimal-literal conversion,
  multiplication, `powf(10, .)`, `isize as Float`). Theorems hold for every such record, hence for f32 and f64 and
  every rounding of `powf`. C78-C80 are about the record of IEEE f32/f64 operations (`FloatLit.v`): `str::parse` is taken to
  be correctly rounded, as the standard library documents; `powf` is an arbitrary function, and where a theorem needs more it
  has the hypothesis `good_powf` (nearest float at integer exponents, the best a library can do).
* Floats in the *geometry* code are Flocq's `binary_float` with one NaN, rounding to nearest even, in the formats of f32
  and f64 (theorems quantify over both with `f : fmt`); where a property says "exact arithmetic" the same model functions
  are run on Coq's reals `R` (or on canonical rationals `Qc`).
* In exact arithmetic a division by zero or the root of a negative number is a `Panic`, so a theorem that a function
  returns a value also says that neither happens. There is no exact infinity; no exact theorem uses it.
* `isize` is 64-bit. `usize` counters (`r`, `c`, `index`) are unbounded `nat`: they are bounded by the text length.
* Overflow: a flag (true = debug profile: panic; false = release: wrap modulo 2^64).
* Loops over `0..4` in the matrix code run over a four-element type, so those array accesses cannot fail.
* Derived `PartialEq` compares variants and then fields in order. A `PathBuf` is its string; `==` of paths is that of the standard
  library on Unix (`Path::components`): `/` separates, repeated and final separators and dots not at the beginning are dropped.
* By-value and by-reference versions of one operator have the same body and are one definition.

## Not modelled

* Error messages are kept as the list of arguments given to `format!`; `RenderModel.v` writes them out as `Display` does.
  How `{:?}` writes one character of a string and a float is left open (it depends on the version of the standard library).
  The texts of `ParseIntError`/`ParseFloatError` are those of current Rust (older versions say "cannot parse integer from
  empty string" for a lone minus sign).
* NaN sign and payload (nothing in the code looks at them).
* `AsPrimitive<i64>` (never used), derived `Clone`, derived `Debug` of types that occur in no error message and are not printed by `main`, `Matrix3` (a struct with no operations), `Spectrum` beyond
  its constructors (the parser only builds them). In `main` the text of one float is left open (C135).
* Memory: allocation failure is not modelled. Stack use is modelled by counting nested calls of the recursive functions
  (`DepthModel.v`); frame sizes and tail-call optimisation by the compiler are not.
* Running time: C89-C91 count calls of `peek`, `next` and `pos` (and the characters of the tokens these copy). The work of
  `split_whitespace`, of converting numbers, of pushing to vectors, of comparing with keywords and of writing messages is not counted.
* Comments of the code (e.g. what pbrt would do) are not specifications; where a property says "expected" it is what
  a caller would expect from the name.

## Trusted base

* Coq's kernel (8.16.1) and its virtual machine (`vm_compute` is used in some proofs and examples).
* That the model says what the Rust code says: every definition cites the lines it was read from; the code was not run.
  The program's own unit tests hold of the model (`ModelTests.v`).
* For floats, that Flocq's IEEE 754 operations are those of the hardware/Rust for f32 and f64.
* The axioms of the standard library listed below by `Print Assumptions`, and no others. They enter through Coq's
  real numbers (the classical ones) and through Flocq's theorems about real values of floats. No theorem about the
  parser depends on any axiom, except those on the real values of float literals (C78-C80).

What `Print Assumptions` lists, grouped:

**No axioms** (287 theorems): C01_parse_ends, C02_no_e_no_panic, C02_panic_iff, C02_release_no_panic, C03_profiles_agree, C04_characters, C04_classes, C04_tokenize_grammar, C04_unambiguous, C04_white_space, C04_white_space_table, C05_positions, C06_all_texts_refuted, C06_crlf, C06_crlf_back, C07_between_tokens, C07_layout_inserted, C07_same_kinds, C07_same_kinds_text, C08_escapes, C08_literal, C08_literal_first, C08_literal_inside, C08_unterminated, C09_every_integer, C09_in_range, C09_in_range_first, C09_out_of_range, C100_beginnings, C100_first_wrong_partial, C100_first_wrong_refuted, C100_never_late, C100_never_late_text, C101_scene, C101_size, C101_tokens, C10_exponent_exact, C10_exponent_partial, C10_exponent_refuted, C110_accepted, C110_alike, C110_names, C110_numbers, C110_parameters, C110_texts, C119_anywhere_refuted, C119_exactly, C119_order, C119_same_type_refuted, C119_swap, C119_texts, C11_lexical_error, C11_lexical_error_after, C120_integers, C120_overflow_refuted, C120_tie_refuted, C120_transpose, C121_closer_in, C121_longer, C121_longer_refuted, C121_panic_refuted, C121_same_scene, C121_token_lists, C121_tokens, C121_whole_refuted, C122_dropped_refuted, C122_meaning, C122_order_refuted, C122_same_scene, C122_same_statements, C122_spelling_refuted, C122_statements, C122_tokens, C123_abs, C123_area, C123_boxes, C123_division, C123_inf_offset_refuted, C123_matrices, C123_meaning, C123_normals, C123_offset, C123_offset_inside, C123_points, C123_unchecked, C123_unchecked_expand_refuted, C123_unchecked_extent_refuted, C123_unchecked_measure_refuted, C123_unchecked_offset, C123_v2_div, C123_vectors, C125_error_laws, C125_errors, C125_paths, C126_integers, C12_parse_grammar, C12_parse_tokens_grammar, C12_unambiguous, C131_longer_refuted, C131_parse, C131_parse_tokens, C131_text, C131_text_all, C131_text_gaps, C131_tokens, C131_tokens_gaps, C132_grows, C132_length, C135_inverse, C135_lines, C135_read_back, C139_absorb_intersect_refuted, C139_associative_refuted, C13_world_after_predirectives, C140_int_back, C140_int_back_refuted, C140_int_points, C140_int_smaller_refuted, C140_int_twice, C141_cancel, C141_cancel_refuted, C141_cross, C141_dot, C141_face, C141_face_refuted, C141_lagrange, C141_normals, C141_points, C141_scaling, C141_sums, C141_zero, C141_zero_refuted, C142_add, C142_boxes, C142_expand, C142_expand_refuted, C142_iter_refuted, C142_measures, C142_points, C142_tests, C143_boxes, C143_expand, C143_extent_refuted, C143_measures, C143_mul, C143_offset, C143_points, C143_tests, C143_vectors, C144_boxes, C144_dimension_refuted, C144_exclusive_refuted, C144_expand, C144_measures, C144_tests, C144_vectors, C14_nothing_after_closer, C15_no_directive_lost_partial, C15_no_directive_lost_refuted, C16_closers_match_refuted, C16_some_closer_partial, C17_closer_needed, C17_world_needed, C18_in_result, C18_number_arguments, C19_in_result, C19_nothing_invented, C19_parameters_kept, C19_parameters_kept_pre, C20_stored_parameters_wf, C21_dropped_silently, C21_dropped_silently_pre, C21_malformed_reported_partial, C21_malformed_reported_refuted, C22_positions, C23_three_component_empty, C23_unknown_type_rejected, C24_any_blocks_refuted, C24_print_parse, C24_reprint, C24_results_printable, C25_empty_text, C25_eof_completable, C25_eof_iff, C26_bounded_depth_blocks_refuted, C26_bounded_depth_refuted, C26_depth_linear_partial, C27_concat, C27_concat_panic, C28_char, C28_lexical_errors, C28_position, C29_parse_errors, C29_positions, C29_scene_or_error, C29_syntax_errors, C29_token, C37_expand_int, C37_overflow, C38_all_corners, C38_bit, C38_low_bits, C42_int, C45_iteration, C45_only_sequence, C45_stays_at_end, C46_lattice_partial, C46_lattice_refuted, C46_visited, C50_inverse_rational, C51_first_panic_rational, C51_panics_rational, C52_laws_wrapping, C53_transpose, C54_area, C54_cross, C54_dot, C54_len_sq, C54_product_checked, C54_product_wrapping, C54_small, C54_small_box, C54_volume, C55_laws, C60_normals, C61_normals, C62_int_partial, C64_index, C64_index_panic, C64_permute, C64_permute_panic, C67_keep, C67_point2, C70_formats, C70_int_division, C70_int_operations, C70_machine_integers, C71_normals, C77_position_partial, C77_position_refuted, C80_contents, C81_display, C81_distinct, C81_one_position, C81_read_back, C81_text, C85_completable, C85_final_partial, C85_final_refuted, C85_final_text_partial, C85_success_final, C85_viable_partial, C89_looks, C89_same, C89_tokens, C90_closing_unbounded, C90_looks, C90_same, C91_linear, C91_same, C92_identifier, C92_list, C92_list_of_n, C92_many, C92_n, C92_n_zero, C92_one, C92_one_or_list, C93_param, C93_spectrum, C94_same_expressions, C94_same_shape, C94_same_tokens, C95_ascii, C95_tables, C96_exact, C96_parser, C96_threshold, C96_tokenizer, C97_below, C97_positions, C98_asked, C98_header, C98_quiet_needed_refuted, C98_tokens, C99_body, C99_tokens

**`ClassicalDedekindReals.sig_forall_dec`** (1 theorems): C55_inverse

**`ClassicalDedekindReals.sig_forall_dec`, `FunctionalExtensionality.functional_extensionality_dep`** (15 theorems): C42_monotone, C42_nonneg, C50_inverse_involutive, C50_inverse_real, C51_first_panic_real, C51_panics_real, C52_laws_real, C52_product_real, C53_product_real, C55_transpose, C60_cross, C60_dot, C61_real, C75_inverse, C82_units

**`ClassicalDedekindReals.sig_forall_dec`, `ClassicalDedekindReals.sig_not_dec`, `FunctionalExtensionality.functional_extensionality_dep`** (32 theorems): C43_contains, C44_box_lerp, C44_inverts_offset, C44_lerp, C44_point_lerp, C55_new, C56_inverse_real, C56_translate_real, C57_scale_refuted, C57_scale_zero, C58_has_scale, C58_identity, C58_rotation, C58_translation, C63_frame, C63_handed, C63_nonzero, C65_affine, C66_scale, C71_length_real, C72_identity_real, C73_block, C73_linear, C73_product, C73_rotation, C73_scale, C73_translate, C73_undo, C73_undo_inverse, C76_scale, C76_scale_zero, C76_translate

**`ClassicalDedekindReals.sig_forall_dec`, `ClassicalDedekindReals.sig_not_dec`, `Classical_Prop.classic`, `FunctionalExtensionality.functional_extensionality_dep`** (383 theorems): C102_equal_columns_refuted, C102_equal_rows_refuted, C102_infinity, C102_regular_refuted, C102_result_partial, C102_zero_row_refuted, C103_between_partial, C103_box_refuted, C103_monotone_refuted, C103_same_refuted, C104_boxes, C104_ends, C104_finite, C104_negation, C104_order, C104_points, C104_sign, C105_error, C105_formula, C105_one, C105_one_exact_refuted, C105_one_near, C105_zero, C105_zero_overflow_refuted, C106_exact_refuted, C106_near_partial, C107_added_box, C107_added_point, C107_inside, C107_intersect, C107_kept_box, C107_kept_point, C107_new, C107_order_refuted, C107_overlaps, C107_union, C107_union_order_refuted, C107_union_pt, C108_boxes, C108_nan, C108_order, C108_points, C108_split, C109_any_invertible_refuted, C109_inverse_accuracy, C109_panic, C109_transform, C111_inverse_twice, C111_vector, C112_equal, C112_nan_refuted, C112_negated, C112_signs, C113_box_on_ray, C113_diagonal, C113_dot, C113_expand, C113_length, C113_lerp, C113_offset, C113_ray, C113_transform, C114_box_measures, C114_boxes, C114_exclusive_refuted, C114_matrices, C114_nan_refuted, C114_points, C114_products, C114_radius_refuted, C114_rays, C114_vectors, C115_blocks, C115_far_refuted, C115_last_row, C116_centre, C116_coordinate_system, C116_expand, C116_face_forward, C116_length, C116_lerp, C116_measures, C116_multiples, C116_order, C116_products, C116_ratios, C116_sums, C116_tiny_refuted, C116_transform, C117_larger_refuted, C117_length, C117_matrices, C117_measures, C117_multiples, C117_products, C117_sphere, C117_sums, C118_coordinate_system, C118_everything, C118_length, C118_matrices, C118_offset, C118_points, C118_products, C118_ray, C118_vectors, C120_add, C120_area_refuted, C120_box_lerp, C120_boxes, C120_components, C120_cross, C120_cross_swap, C120_differential, C120_dimension, C120_dot_refuted, C120_extent, C120_floor, C120_frame_refuted, C120_has_scale, C120_lerp, C120_mul, C120_normals, C120_points, C120_rays, C120_scale, C120_scale_refuted, C120_sphere, C120_swap, C120_transform, C120_translate, C120_vectors, C120_volume_refuted, C124_associative, C124_associative_refuted, C124_left, C124_left_refuted, C124_right, C124_successive, C124_successive_refuted, C124_sum, C125_always_self_refuted, C125_identical_refuted, C125_literals, C125_results, C125_scenes, C125_self, C125_symmetric, C125_tokens, C125_transitive, C126_floats, C126_identity_refuted, C126_inverse, C126_laws, C126_matrices, C126_transforms, C126_transpose, C127_boxes, C127_division_refuted, C127_lists, C127_matrices, C127_normals, C127_points, C127_quotients, C127_rays, C127_relation, C127_scale, C127_scale_refuted, C127_transforms, C127_two, C127_vectors, C128_boxes, C128_components, C128_division, C128_extents, C128_face_forward, C128_face_forward_normals, C128_length, C128_lerp, C128_lerp_points, C128_limit_refuted, C128_matrices, C128_normals, C128_points, C128_ray_at, C128_round, C128_transform, C128_vectors, C129_ends_iff, C129_finite_refuted, C129_next, C129_unlimited, C129_whole, C130_axis, C130_coordinates, C130_frame, C130_large_refuted, C130_normals, C130_tiny_refuted, C133_back, C133_diagonal, C133_distance_refuted, C133_far_refuted, C133_normals, C133_normals_exact, C133_points, C133_points_exact, C133_ray, C133_shift, C133_sides_exact, C133_vectors, C133_vectors_exact, C134_cross, C134_distance, C134_dot, C134_dot_refuted, C134_n_cross, C134_n_dot, C134_n_sum, C134_sum, C134_sum_refuted, C135_main, C136_both, C136_exact_refuted, C136_transform, C137_near, C137_nearest_refuted, C137_normals, C137_order, C137_panic, C137_whole, C137_wrapped, C138_backwards, C138_backwards_refuted, C138_between, C138_centre, C138_half, C138_inside, C138_overflow_refuted, C138_points, C138_tiny_refuted, C138_upper, C139_absorb_intersect, C139_absorb_union, C139_associative, C139_common_point, C139_commutative, C139_distributes, C139_distributes_union, C139_idempotent, C139_intersect, C139_one_by_one, C140_back, C140_back_refuted, C140_crossed, C140_smaller, C140_smaller_refuted, C142_float_inside, C142_float_overlaps, C142_float_refuted, C30_empty, C30_nan_first, C30_nan_later, C30_pmax, C30_pmin, C31_new, C31_new_order, C31_new_pt, C32_associative, C32_commutative, C32_idempotent, C32_union, C33_union_pt, C34_gap, C34_intersection_partial, C34_intersection_refuted, C35_overlaps, C35_symmetric, C36_exclusive, C36_inside, C36_nan, C37_expand_float, C37_infinite_refuted, C38_corner_inside, C39_everything, C39_intersect, C39_union, C40_longest_axis, C40_max_dimension, C40_maximum_extent, C40_normal, C41_extent_refuted, C41_offset, C43_centre_float, C43_overflow_float, C48_area_monotone, C48_area_nonneg, C48_volume_cases, C48_volume_monotone, C48_volume_nan_refuted, C51_first_panic_float, C52_unit_float, C53_product, C53_sum, C56_inverse_float, C56_translate_float, C60_cross_float, C60_dot_float, C61_float, C62_divides_refuted, C62_float_partial, C65_at_zero_float, C67_point2_float, C68_floor_ceil, C69_normal_components, C69_normal_max, C69_normal_min, C69_point_max, C69_point_min, C69_vector_components, C69_vector_max, C69_vector_min, C70_float_operations, C70_normals, C70_point2_abs, C70_points, C70_vectors, C71_length_float, C71_length_int, C71_unchecked_refuted, C72_identity_float, C72_identity_vectors, C73_scale_float, C73_translate_float, C74_new_infinite, C74_no_differentials, C74_unbounded, C75_main, C78_closest, C78_every_float, C78_exact, C78_int, C78_literal_nearest, C78_monotone, C78_overflow, C78_spelling, C78_token_nearest, C79_error_partial, C79_exact_factors_partial, C79_exponent_nearest_refuted, C79_no_overflow_refuted, C79_no_underflow_refuted, C79_not_nan_refuted, C80_expressible, C80_without_nan, C82_b_lerp, C82_cross, C82_dot, C82_len, C82_len_sq, C82_lerp, C82_p_lerp, C82_product, C82_ray, C82_surface, C82_transform, C82_volume, C83_centre, C83_contains, C83_radius, C83_slack_refuted, C84_frame, C86_large_translate_refuted, C86_monomial, C86_powers_of_two, C86_scale, C86_small_entry_refuted, C86_translate, C87_has_scale, C87_not_finite, C87_translate, C88_scalings, C88_translations

## Properties: how each is proved, and status

"partial" always means: the statement one would expect is false of the code; a `_refuted` theorem gives the
counterexample, and the remaining theorems prove the true part or characterise the behaviour exactly.
Theorem names are in MANIFEST.json.

| id | property | proof | status |
|---|---|---|---|
| C01 | Parsing always ends and never indexes out of range | fuel is computed from the text length; a measure (remaining characters, remaining tokens) shows it never runs out, and every index the model uses is checked with `nth_error` | proved |
| C02 | Parsing panics only on integer exponent overflow | the text relation `lex_overflows` (an integer mantissa times a power of ten leaves isize) is proved equivalent to the panic | proved |
| C03 | Debug and release builds agree | simulation: whatever the checked build returns, the unchecked build returns | proved |
| C04 | Tokenization is exactly the lexical grammar | soundness and completeness of `tokenize` against the inductive grammar `lexes`, and determinism of the grammar | proved |
| C05 | Token positions are true source positions | `pos_of` counts newlines and columns in the text prefix; every token of a successful run carries it | proved |
| C06 | CRLF and LF files parse identically | simulation over the text with CRs removed; one counterexample shows why the condition on lone CRs/strings is needed | proved |
| C07 | Layout does not change the scene | positions are erased and the parser commutes with the erasure; inserted layout does not change kinds | proved |
| C08 | Every string value can be written as a literal | explicit construction of the literal and a run of the grammar | proved |
| C09 | Integer literals denote their decimal value | digits are read as a decimal numeral; the value is the numeral | proved |
| C10 | An integer literal with exponent denotes m*10^e | counterexample by computation; the exact behaviour as an equation | partial |
| C11 | A lexical error anywhere rejects the whole file | from C04: no derivation exists past an error | proved |
| C12 | Parsing is exactly the scene grammar | soundness and completeness of the parser against the token grammar `SceneSpec` | proved |
| C13 | A successful parse is pre-directives followed by a world block | inversion of grammar derivations | proved |
| C14 | Nothing after the first block closer matters | inversion of grammar derivations | proved |
| C15 | No directive of the world block is lost | counterexample; induction on derivations for the true part | partial |
| C16 | Block closers match their openers | counterexample; induction on derivations for the true part | partial |
| C17 | An unclosed or missing world is rejected | inversion of grammar derivations | proved |
| C18 | Transform pre-directives take exactly their number of floats | inversion of grammar derivations | proved |
| C19 | Parameters are filed under their declared type, in order | induction over the parameter list | proved |
| C20 | Every stored parameter has well-formed values | induction over the parameter list | proved |
| C21 | A malformed parameter is reported, not dropped | counterexample; the silently dropped forms are characterised by an iff | partial |
| C22 | Positions in the result are positions of source tokens in document order | induction over derivations: positions of the result form a subsequence of the token positions | proved |
| C23 | Three-component parameters are unsupported and rejected | inversion of grammar derivations | proved |
| C24 | Scenes survive printing and reparsing | `PrintSpec` writes a scene as tokens; a grammar derivation is built for the printed tokens | proved |
| C25 | End-of-input error is distinguished | case analysis of the error paths | proved |
| C26 | Stack use of parsing is bounded | `DepthModel` repeats the recursive functions with a stack limit; linear bound by induction, refutation by families of inputs | partial |
| C27 | Texts are tokenized line by line | compositionality of the lexical grammar over lines | proved |
| C28 | Lexical errors are exactly the specified ones | the error relation of `LexErrSpec` is proved sound and complete by one induction over the run | proved |
| C29 | Syntax errors are exactly the specified ones | the error relation of `SynErrSpec` is sound, and together with the grammar and the incomplete scenes it is exhaustive | proved |
| C30 | pmin and pmax return an extremal element | order laws | proved |
| C31 | Bounds3::new is the smallest box around two points | order laws | proved |
| C32 | union is the least upper bound of boxes | order laws | proved |
| C33 | union_pt adds exactly the point | order laws | proved |
| C34 | intersect is set intersection | counterexample and order laws | partial |
| C35 | overlaps decides common points | order laws | proved |
| C36 | inside and inside_exclusive agree off the upper faces | order laws | proved |
| C37 | expand by a non-negative amount only grows the box | rounding is monotone (Flocq) | proved |
| C38 | corner enumerates the eight corners | case analysis on three bits | proved |
| C39 | new_inf is the box of everything | order laws | proved |
| C40 | maximum_extent and max_dimension name a longest axis | case analysis and order laws | proved |
| C41 | offset gives relative coordinates in [0,1] | rounding of quotients between 0 and 1 (Flocq) | proved |
| C42 | volume and surface_area are non-negative and monotone | real arithmetic; i64 exactness | proved |
| C43 | bounding_sphere contains the box | real arithmetic; in f32 the midpoint is between the corners (Flocq) | proved |
| C44 | lerp interpolates | real arithmetic | proved |
| C45 | Iterating a Bounds2 always ends and never overflows | induction on the distance to the end, with explicit overflow checks | proved |
| C46 | Iterating a Bounds2 visits each lattice point of the box once | counterexample; explicit description of the visited points | partial |
| C50 | Matrix4::inverse inverts | Gauss-Jordan invariant: the working matrix and the original have the same solutions | proved |
| C51 | Matrix4::inverse panics exactly on singular matrices | same invariant; kernel vector when a pivot vanishes | proved |
| C52 | Matrix multiplication laws | ring reasoning; Flocq for the unit | proved |
| C53 | Transpose laws | index computation | proved |
| C54 | i64 arithmetic is exact or panics under overflow checks | checked-operation laws; congruence modulo 2^64 | proved |
| C55 | Transform pairs stay inverse | from C50-C53 | proved |
| C56 | translate carries a correct inverse | index computation; exact float operations with 0 and 1 | proved |
| C57 | scale carries a correct inverse | explicit products | partial |
| C58 | has_scale detects changed axis lengths | real arithmetic | proved |
| C60 | Dot and cross product laws | ring; sign symmetry of rounding | proved |
| C61 | face_forward flips onto the right side | case split; sign symmetry of rounding | proved |
| C62 | Vector2 division divides | computation | partial |
| C63 | coordinate_system returns an orthonormal frame | field reasoning with square roots | proved |
| C64 | Index and permute panic exactly out of range | case analysis | proved |
| C65 | Ray::at is affine in t | ring; exact float operations with 0 | proved |
| C66 | scale_differentials scales about the main ray | ring | proved |
| C67 | Conversions between points, vectors and normals lose nothing | case analysis | proved |
| C68 | floor and ceil bracket the point | Flocq rounding to integers | proved |
| C69 | Componentwise min and max | order laws | proved |
| C48 | volume and surface_area of f32 boxes are non-negative numbers | monotonicity of rounding (Flocq); counterexample | partial |
| C70 | Arithmetic of points, vectors and normals is componentwise | case analysis; correctness theorems of Flocq | proved |
| C71 | len is the Euclidean length | Cauchy-Schwarz; Flocq | proved |
| C72 | is_identity recognises exactly the identity matrix | entrywise comparison | proved |
| C73 | Vector3::transform multiplies by the linear part | ring; exact float operations with 0 and 1 | proved |
| C74 | New rays are unbounded and have no differentials | order of the infinities | proved |
| C75 | Inverse of integer matrices | C50/C51 with the integer determinant | proved |
| C76 | translate and scale move points as named | index computation | proved |
| C77 | Error messages say where | computation; case analysis of the error relations | partial |
| C78 | A float literal without exponent is the nearest float | Flocq: division of integers is correctly rounded; every finite float is a decimal fraction | proved |
| C79 | A float literal with an exponent is the nearest float | computation for the counterexamples; relative error of three roundings (Flocq) | partial |
| C80 | The scenes that a text can denote | a text is written for the printed tokens of C24; conversely every int and name of a token list comes from a literal | proved |
| C81 | Displayed error messages show a place and can be told apart | from C28/C29 every message has one of seven shapes; decimal numerals and the literal texts are prefix-free | proved |
| C82 | Finite float results are within a few rounding errors of the exact value | relative error of one rounding (Flocq), carried through sums, products and square roots | proved |
| C83 | The bounding sphere computed in floats contains the box up to rounding | C82, norms and the triangle inequality | proved |
| C84 | coordinate_system in floats is orthonormal up to rounding | C82 against the exact frame; finiteness from the bounds on the length | proved |
| C85 | An error that names a place is final | counterexample; induction over the error relation of C29: each error is stable under appending tokens; explicit completion of unfinished inputs | partial |
| C86 | Matrix4::inverse in floats on matrices with one entry per row and column, and on small translations | the pivot is the last of the largest candidates; invariant of the four elimination steps (one solid entry per row, zeros elsewhere), division correctly rounded; counterexamples by computation | proved |
| C87 | has_scale in floats | error bound of the squared length (C82), values of the two thresholds, sums of squares are never NaN | proved |
| C88 | Products of float translations and scalings | each entry is a sum with at most two non-zero terms; rounding of equal operands | proved |
| C89 | The tokenizer looks at every character at most five times | Hoare-style rules for the program that records its looks (`TraceCore.v`); invariant on the last place and the looks already made there | proved |
| C90 | The parser looks at every token at most six times unless it closes a block | the same; six is reached by an identifier after an unclosed list; induction over the nesting for the closing tokens | proved |
| C91 | Parsing is linear in the looks at the input and in the text copied | C89, C90 and a sum over the tokens | proved |
| C92 | The functions that read values and lists of values accept, reject and stop exactly as specified | from: accepted implies runs, listed error implies runs, one of the two always applies, and runs are unique (`ValueProofs.v`); generic over the function that reads one value | proved |
| C93 | Spectra and parameters accept, reject and stop exactly as specified | the same, by cases on the header | proved |
| C94 | The f32 and the f64 build differ in nothing but the floats | every function of the tokenizer and the parser commutes with a map of floats that respects the four operations (`BuildProofs.v`); evaluation of symbolic floats is such a map | proved |
| C95 | Only the classes of the characters in the text matter | two runs side by side: every character that is classified was read from the text | proved |
| C96 | How much stack parsing takes, exactly | the bounded functions of `DepthModel` against the unbounded ones: one threshold each, by induction over the run; the grammar gives its value | proved |
| C97 | Positions are only carried along | every function of the parser commutes with a map of positions (`MoveProofs.v`); induction over the error relation of C28 | proved |
| C98 | A header in front of a text | the grammar and the error relation of C29: what follows a pre-directive can be exchanged for anything quiet | proved |
| C99 | A piece of a world block in front of a text | mutual induction over the grammar of directives; closers end all blocks at once | proved |
| C100 | The place a syntax error names is that of the first wrong token | induction over the error relations of C28/C29, building for every error a completion of what stands before the place; the tokens of completions have texts | partial |
| C101 | A scene is no larger than its text | induction over the grammar: every node and value is paid for by a token of its own | proved |
| C102 | Matrix4::inverse in floats panics on singular matrices and on no others | NaN spreads through every elimination step to the place of its row (`FloatNan.v`); the counterexamples are computed | partial |
| C103 | lerp in floats stays between its end points | error analysis of the two products and the sum; the counterexamples are computed | partial |
| C104 | lerp in floats meets its end points, never overflows, and keeps order and sign | monotonicity of rounding; 1 - t is exact or its error is covered by the spacing below the largest float | proved |
| C105 | scale_differentials in floats | error analysis; Sterbenz for the factor one | proved |
| C106 | lerp by the offset of a point returns to the point in floats | the error bounds of offset and lerp put together | partial |
| C107 | NaN in boxes | case analysis on NaN; the order laws of C30 | proved |
| C108 | A box grown point by point is the smallest around all points | induction over the list with C33 and C32; for NaN an invariant per axis | proved |
| C109 | Matrix4::inverse in floats is accurate for well-conditioned matrices | the full pivoting is followed over the real numbers (`GaussReal.v`): each round multiplies the error of the residual by a bounded factor, and the chosen pivot cannot be small; the float operations add one rounding each (`FloatGauss.v`) | proved |
| C110 | Places, numbers, names and other strings are only carried along | a logical relation: every function of the parser maps related states to related results (`LikeProofs.v`) | proved |
| C111 | In floats the inverse of a well-conditioned matrix undoes it | the bounds of C109 for the matrix and again for its computed inverse, whose own true inverse is near the matrix because the residual is near the identity; for vectors those bounds and the rounding errors of C82 (`FloatBack.v`) | proved |
| C112 | Matrix4::inverse in floats treats both signs alike | two runs of the inverse side by side: the same pivots, and entries that differ by a sign for the row and one for the column, which a round exchanges for the index of the pivot (`FloatSign.v`) | proved |
| C113 | Order survives rounding | every operation of the model rounds the exact result and rounding is monotone, infinities included; the results follow operation by operation (`FloatMono.v`) | proved |
| C114 | Mirrored scenes give mirrored results in floats | each operation of the model commutes with a change of sign, up to the signs of zeros; comparisons turn round (`FloatMirror.v`) | proved |
| C115 | Blocks that do not mix are not mixed by the inverse in floats | zeros outside the blocks and the reciprocal on the diagonal are an invariant of the rounds (`FloatBlocks.v`) | proved |
| C116 | A change of unit by a power of two changes nothing else in floats | rounding commutes with powers of two above the subnormal range, and for sums everywhere (`FloatUnit.v`) | proved |
| C117 | Scenes of moderate size never overflow in floats | a small integer times a power of two is a float, so rounding does not cross it (`FloatRange.v`) | proved |
| C118 | Where NaN comes from | IEEE 754 operations case by case, finite ones by their rounding (`FloatNanOps.v`); for the coordinate system bounds on the quotients (`FloatThird.v`) | proved |
| C119 | Order of parameters | induction over the grammar with a relation between token lists; parameter sets compared type by type (`ReorderProofs.v`) | proved |
| C120 | Renaming the axes | componentwise operations as one function of the axis; the remaining sums by commutativity of the first addition (`FloatAxes.v`) | proved |
| C121 | A text cut short | a cut leaves all tokens but the last as they are; the parser reads up to the closer only, and a number or part of a word in its place is not accepted (`CutProofs.v`) | proved |
| C122 | What a scene remembers of its text | the grammar of scenes is equivalent to flat statements with a meaning; the meaning is injective (`RememberProofs.v`) | proved |
| C123 | Integer geometry: exactly when overflow checks panic | rules for `checked` along the binds of each operation (`ChkProofs.v`) | proved |
| C124 | The laws of matrices in floats | both sides approximate the same real number, by the rules of `FloatErr.v` (`FloatLaws.v`) | proved |
| C125 | When tokens, scenes and errors are equal | every comparison is equality of images under one map (floats to values, paths to a normal form), by induction over directives (`EqProofs.v`) | proved |
| C126 | When points, vectors, normals, matrices and transforms are equal | float comparison is equality of values, case by case (`EqThms.v`) | proved |
| C127 | The sign of zero | the relation is carried through each operation; differences in offset and pivots of the inverse are not zero (`FloatZero.v`) | proved |
| C128 | Whole numbers of moderate size are exact in floats | a whole number of at most 2^prec is a float, so no operation on one rounds; the integer side comes from the theorems on overflow (`FloatWhole.v`) | proved |
| C129 | Iterating over a two-dimensional box of floats | adding one raises the integer part until 2^prec, where it has no effect (`FloatIter.v`) | proved |
| C130 | A length in floats is never less than a coordinate | the rounded root of a rounded square is the absolute value; rounding is monotone (`FloatLen.v`) | proved |
| C131 | What is not looked at does not matter | a relation between two runs, by cases over the functions that keep the record (`Seen.v`), and for whole runs in `SeenThms.v` | proved |
| C132 | An error message is at most proportional to the text | by the specifications of lexical and syntax errors (C28, C29): each message shows one place and at most one token (`MsgProofs.v`) | proved |
| C133 | Differences in floats have the right sign, and differences of near points are exact | by gradual underflow and Sterbenz' lemma, both from Flocq (`FloatNear.v`) | proved |
| C134 | The inequalities of Cauchy-Schwarz and of the triangle hold in floats up to rounding | from the error bounds of C82 and the inequalities in the reals (`FloatEuclid.v`) | proved |
| C135 | The program prints the inverse of its matrix, and a printed matrix can be read back | by computation for the numbers and by induction over lines for the layout (`MainProofs.v`) | proved |
| C136 | A float matrix times its computed inverse is near the identity on either side | from the bounds of C109 on the inverse and of C82 on the product, with finiteness of each sum shown step by step (`FloatResid.v`) | proved |
| C137 | The length of a vector of integers | the squares are not negative, so that a partial sum overflows only if the whole does; then two relative rounding errors, and the root of a square from C130 (`IntLen.v`) | proved |
| C138 | Interpolating from the other end, and half-way | 1 - t is exact on the multiples, and 1 - (1 - t) always is one; halving is exact outside the tiny numbers, and a sum of floats that is tiny is exact (`FloatHalf.v`) | proved |
| C139 | The algebra of boxes, and boxes that meet pairwise | what it takes to be above the lower and below the upper bound of a union or an intersection, coordinate by coordinate; the rest is propositional. The common point has the largest of the lower bounds as coordinates (`BoxMeet.v`) | proved |
| C140 | expand by a negative amount, and there and back | the bounds are moved and then sorted; rounding is monotone, and a sum has one relative rounding error (`BoxShrink.v`) | proved |
| C141 | The laws of integer vectors whatever overflows | wrapping is a ring homomorphism onto the integers modulo 2^64, and with checks a computation panics or does what it does without (`IntRing.v`) | proved |
| C142 | Moving the scene | minimum, maximum, comparison and difference of integers commute with a shift; float addition is monotone (`IntShift.v`) | proved |
| C143 | Enlarging the scene | each step on the enlarged scene is a power of k times a step on the scene, so it fits only if that one does (`IntGrow.v`, on top of C123) | proved |
| C144 | The mirror image of an integer scene | changing the sign exchanges minimum and maximum and keeps differences of exchanged bounds and products of two components (`IntFlip.v`) | proved |

## Deviations of the code found

* `Bounds3::intersect` of disjoint boxes returns the gap between them (C34).
* `Bounds3::corner` has the sense of the bits inverted with respect to pbrt (C38); `new_inf` is the box of everything (C39).
* Iterating a `Bounds2` skips the first point, restarts later rows at x = 0 and includes `p_max` (C45, C46).
* `Vector2 / s` multiplies (C62).
* `Transform::scale` stores a matrix that is not the inverse: its last row is `[0, 0, z, 1]` (C57); harmless for
  vectors (C73), wrong for points.
* `bounding_sphere` returns radius 0 when a coordinate sum overflows (C43).
* `volume` of a finite flat box is NaN when the base area overflows (C48).
* The length of an i64 vector is NaN in release builds when its square overflows (C71).
* `expand` of an infinite box by infinity loses points (C37); `offset` leaves [0,1] when an extent overflows (C41).
* `Matrix4::inverse` in floats of the translation by (13, 0, 0) has a corner entry that is not 1, and all but one entry of the
  inverse of diag(a, 1, 1, 1) is NaN when 1/a overflows (C86).
* `Matrix4::inverse` reaches its first `panic!` on NaN input in f32, never in exact arithmetic (C51).
* The exponent of an integer literal is truncated to 32 bits; a power that leaves isize panics (debug) or wraps (release) (C10, C02).
* A float literal with an exponent is the rounded mantissa times a rounded power of ten: not always the nearest float
  (`0.1e-1`), infinite or zero although the value is in range (`0.01e39`, `10.0e-46` in f32), NaN for `0.0e400` (C79).
* Any closing directive closes any block, and everything after the closer of the world block is ignored (C14-C16).
* Some malformed parameters are dropped without an error (C21).
* The stack depth of parsing grows with the input (C26).

## Tests against wrong programs

`tools/seed.py` copies `rocq/` to a scratch directory, edits one definition of a model file, rebuilds, replaces every
proof that no longer goes through by `Admitted` (in the scratch copy only) and lists the property theorems that depend on
one of them. `seeded/LOG.jsonl` has one line per attempt. An edit whose claim is not covered by a failing theorem leads to
a stronger theorem (field `theorems_tightened`). Edits that keep every claim true are kept in the log as controls: a
theorem that "fails" there only needs a new proof script.
