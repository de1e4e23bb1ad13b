{
 "claims": [
  {
   "property": "C01",
   "status": "proved",
   "theorems": [
    "C01_move_drags_rest_mesh",
    "C01_step_ignores_rest_mesh",
    "C01_single_anchor_clamps",
    "C01_single_anchor_snaps"
   ],
   "note": ""
  },
  {
   "property": "C02",
   "status": "proved",
   "theorems": [
    "C02_integration_skips_exactly_grabbed_points",
    "C02_motion_law",
    "C02_attachment_is_permanent",
    "C02_only_live_grabs_hold"
   ],
   "note": ""
  },
  {
   "property": "C03",
   "status": "proved",
   "theorems": [
    "C03_first_anchor_is_locked",
    "C03_first_anchor_is_kept"
   ],
   "note": ""
  },
  {
   "property": "C04",
   "status": "proved",
   "theorems": [
    "C04_grab_takes_nearest",
    "C04_grab_fails_only_out_of_range",
    "C04_grab_takes_nearest_in_double"
   ],
   "note": ""
  },
  {
   "property": "C05",
   "status": "proved",
   "theorems": [
    "C05_insert_splits_nearest_spring",
    "C05_insert_splits_nearest_spring_in_double"
   ],
   "note": ""
  },
  {
   "property": "C06",
   "status": "proved",
   "theorems": [
    "C06_network_restored",
    "C06_network_restored_after_resizing"
   ],
   "note": ""
  },
  {
   "property": "C07",
   "status": "proved",
   "theorems": [
    "C07_reverse_release_is_safe"
   ],
   "note": ""
  },
  {
   "property": "C08",
   "status": "proved",
   "theorems": [
    "C08_any_release_order_is_safe_refuted",
    "C08_every_later_step_fails",
    "C08_step_fails_exactly_when_dangling"
   ],
   "note": ""
  },
  {
   "property": "C09",
   "status": "proved",
   "theorems": [
    "C09_translation_double_refuted",
    "C09_translation",
    "C09_deformation"
   ],
   "note": ""
  },
  {
   "property": "C10",
   "status": "proved",
   "theorems": [
    "C10_same_for_all",
    "C10_nearly_rigid_double",
    "C10_rigid_on_pixels_double",
    "C10_rigid_double_refuted",
    "C10_rigid",
    "C10_additive",
    "C10_does_not_wake"
   ],
   "note": ""
  },
  {
   "property": "C11",
   "status": "proved",
   "theorems": [
    "C11_target_double_refuted",
    "C11_target",
    "C11_again",
    "C11_idempotent"
   ],
   "note": ""
  },
  {
   "property": "C12",
   "status": "proved",
   "theorems": [
    "C12_at_rest_double_refuted",
    "C12_comes_to_rest",
    "C12_at_rest"
   ],
   "note": ""
  },
  {
   "property": "C13",
   "status": "proved",
   "theorems": [
    "C13_hang_in_double",
    "C13_move_to_returns_in_double_refuted",
    "C13_move_to_returns_refuted",
    "C13_hang"
   ],
   "note": ""
  },
  {
   "property": "C14",
   "status": "proved",
   "theorems": [
    "C14_resize",
    "C14_same_size",
    "C14_twice",
    "C14_settled_model_refuted"
   ],
   "note": ""
  },
  {
   "property": "C15",
   "status": "proved",
   "theorems": [
    "C15_consistent_after_release_refuted",
    "C15_held_springs_keep_their_length"
   ],
   "note": ""
  },
  {
   "property": "C16",
   "status": "proved",
   "theorems": [
    "C16_one_spring_in_double",
    "C16_action_reaction",
    "C16_one_spring",
    "C16_rest"
   ],
   "note": ""
  },
  {
   "property": "C17",
   "status": "proved",
   "theorems": [
    "C17_fresh_model_is_at_rest_in_double",
    "C17_far_away_refuted",
    "C17_fresh_model_is_at_rest"
   ],
   "note": ""
  },
  {
   "property": "C18",
   "status": "proved",
   "theorems": [
    "C18_settled_stays_settled_in_double",
    "C18_settled_stays_settled",
    "C18_single_inserted_anchor_refuted"
   ],
   "note": ""
  },
  {
   "property": "C19",
   "status": "proved",
   "theorems": [
    "C19_integrations",
    "C19_batches",
    "C19_zero"
   ],
   "note": ""
  },
  {
   "property": "C20",
   "status": "proved",
   "theorems": [
    "C20_grabbed_points_stay"
   ],
   "note": ""
  },
  {
   "property": "C21",
   "status": "proved",
   "theorems": [
    "C21_single_grab_in_double",
    "C21_rounding_of_movements",
    "C21_whole_units_are_exact",
    "C21_exact_after_moving_refuted",
    "C21_single_grab",
    "C21_single_grab_home"
   ],
   "note": ""
  },
  {
   "property": "C22",
   "status": "proved",
   "theorems": [
    "C22_grabbed_point_immobile_refuted",
    "C22_grabbed_point"
   ],
   "note": ""
  },
  {
   "property": "C23",
   "status": "proved",
   "theorems": [
    "C23_constrainment",
    "C23_constrainment_in_double"
   ],
   "note": ""
  },
  {
   "property": "C24",
   "status": "proved",
   "theorems": [
    "C24_zero_range",
    "C24_zero_range_harmless_refuted"
   ],
   "note": ""
  },
  {
   "property": "C25",
   "status": "proved",
   "theorems": [
    "C25_moved_anchor_not_reported",
    "C25_step_zero_reports_moves_refuted"
   ],
   "note": ""
  },
  {
   "property": "C26",
   "status": "proved",
   "theorems": [
    "C26_corners",
    "C26_corners_in_double"
   ],
   "note": ""
  },
  {
   "property": "C27",
   "status": "proved",
   "theorems": [
    "C27_convex_combination",
    "C27_inside_every_half_plane",
    "C27_convex_combination_in_double",
    "C27_inside_every_half_plane_in_double"
   ],
   "note": ""
  },
  {
   "property": "C28",
   "status": "proved",
   "theorems": [
    "C28_commutes_with_affine_maps",
    "C28_linear_on_a_resting_mesh",
    "C28_linear_on_a_resting_mesh_in_double"
   ],
   "note": ""
  },
  {
   "property": "C29",
   "status": "proved",
   "theorems": [
    "C29_rounded_bounding_box",
    "C29_misses_by_at_most_half",
    "C29_contains_rounded_points",
    "C29_contains_all_points_refuted",
    "C29_rounded_bounding_box_in_double",
    "C29_misses_by_at_most_half_in_double"
   ],
   "note": ""
  },
  {
   "property": "C30",
   "status": "proved",
   "theorems": [
    "C30_progress_in_unit"
   ],
   "note": ""
  },
  {
   "property": "C31",
   "status": "proved",
   "theorems": [
    "C31_step_result",
    "C31_step_returns"
   ],
   "note": ""
  },
  {
   "property": "C32",
   "status": "proved",
   "theorems": [
    "C32_first_value",
    "C32_construction_clamps_refuted",
    "C32_linear_starts_at_zero"
   ],
   "note": ""
  },
  {
   "property": "C33",
   "status": "proved",
   "theorems": [
    "C33_value_in_single",
    "C33_linear_value",
    "C33_linear_split",
    "C33_linear_animation",
    "C33_linear_never_decreases",
    "C33_progress_never_decreases"
   ],
   "note": ""
  },
  {
   "property": "C34",
   "status": "proved",
   "theorems": [
    "C34_finishes_up_to_rounding",
    "C34_exact_length_refuted",
    "C34_never_finishes_refuted",
    "C34_long_step_finishes"
   ],
   "note": ""
  },
  {
   "property": "C35",
   "status": "proved",
   "theorems": [
    "C35_reversed_linear_in_single",
    "C35_reverse_twice_in_single_refuted",
    "C35_reverse_complements",
    "C35_reverse_twice",
    "C35_reversed_linear"
   ],
   "note": ""
  },
  {
   "property": "C36",
   "status": "proved",
   "theorems": [
    "C36_construction",
    "C36_caller_unaffected",
    "C36_animation_unaffected",
    "C36_replacement"
   ],
   "note": ""
  },
  {
   "property": "C37",
   "status": "proved",
   "theorems": [
    "C37_zoom_near_float",
    "C37_zoom_interpolates",
    "C37_zoom_constructed",
    "C37_zoom_ends"
   ],
   "note": ""
  },
  {
   "property": "C38",
   "status": "proved",
   "theorems": [
    "C38_zoom_extent",
    "C38_zoom_extent_double",
    "C38_zoom_extent_double_refuted"
   ],
   "note": ""
  },
  {
   "property": "C39",
   "status": "proved",
   "theorems": [
    "C39_bounce_near_float",
    "C39_bounce_scales_about_centre",
    "C39_bounce_ends_at_identity"
   ],
   "note": ""
  },
  {
   "property": "C40",
   "status": "proved",
   "theorems": [
    "C40_bounce_envelope_float",
    "C40_bounce_envelope",
    "C40_bounce_positive_refuted"
   ],
   "note": ""
  },
  {
   "property": "C41",
   "status": "proved",
   "theorems": [
    "C41_glide_ends_flat",
    "C41_glide_axis_near",
    "C41_glide_axis_fixed_refuted",
    "C41_glide_rigid",
    "C41_no_screen_refuted"
   ],
   "note": ""
  },
  {
   "property": "C42",
   "status": "proved",
   "theorems": [
    "C42_ends_on_target",
    "C42_starts_on_source",
    "C42_new_lamp",
    "C42_source_above_refuted",
    "C42_one_column_refuted",
    "C42_one_row_refuted",
    "C42_same_height_refuted",
    "C42_full_stretch_refuted",
    "C42_no_bend_refuted",
    "C42_ends_on_target_float"
   ],
   "note": ""
  },
  {
   "property": "C43",
   "status": "proved",
   "theorems": [
    "C43_bilinear_float",
    "C43_interpolates_float",
    "C43_interpolates",
    "C43_bilinear",
    "C43_exact_at_nodes",
    "C43_in_bounds_double"
   ],
   "note": ""
  },
  {
   "property": "C44",
   "status": "proved",
   "theorems": [
    "C44_exactly",
    "C44_exactly_real",
    "C44_below_refuted",
    "C44_left_refuted",
    "C44_right_refuted",
    "C44_near"
   ],
   "note": ""
  },
  {
   "property": "C45",
   "status": "proved",
   "theorems": [
    "C45_same_resolution",
    "C45_uncountable_refuted",
    "C45_enlarge_refuted",
    "C45_enlarge_read_refuted",
    "C45_shrink"
   ],
   "note": ""
  },
  {
   "property": "C46",
   "status": "proved",
   "theorems": [
    "C46_extremes_bound",
    "C46_source_above_refuted"
   ],
   "note": ""
  },
  {
   "property": "C47",
   "status": "proved",
   "theorems": [
    "C47_assignment_copies_refuted",
    "C47_assignment_exchanges_z_w",
    "C47_assignment_exact_iff",
    "C47_two_assignments_cancel",
    "C47_copy_construction_copies",
    "C47_swap",
    "C47_points_are_copied"
   ],
   "note": ""
  },
  {
   "property": "C48",
   "status": "proved",
   "theorems": [
    "C48_contains_is_closed_rectangle",
    "C48_contains_ieee",
    "C48_nan_never_contained",
    "C48_monotone",
    "C48_translation_invariant"
   ],
   "note": ""
  },
  {
   "property": "C49",
   "status": "proved",
   "theorems": [
    "C49_componentwise",
    "C49_add_subtract_inverse",
    "C49_distance_is_euclidean",
    "C49_distance_metric",
    "C49_equals_decides"
   ],
   "note": ""
  },
  {
   "property": "C50",
   "status": "proved",
   "theorems": [
    "C50_getters",
    "C50_setters_keep_the_picture",
    "C50_step_uses_current_values",
    "C50_resolution_refuted"
   ],
   "note": ""
  },
  {
   "property": "C51",
   "status": "proved",
   "theorems": [
    "C51_move_by_moves_only_its_point"
   ],
   "note": ""
  },
  {
   "property": "C52",
   "status": "proved",
   "theorems": [
    "C52_simulation_never_moves_inserted_points"
   ],
   "note": ""
  },
  {
   "property": "C53",
   "status": "proved",
   "theorems": [
    "C53_well_formed_histories_do_not_fail",
    "C53_any_release_order",
    "C53_well_formed_histories_do_not_fail_in_double"
   ],
   "note": ""
  },
  {
   "property": "C54",
   "status": "proved",
   "theorems": [
    "C54_any_finite_position_refuted"
   ],
   "note": ""
  },
  {
   "property": "C55",
   "status": "proved",
   "theorems": [
    "C55_identifiers_unique"
   ],
   "note": ""
  },
  {
   "property": "C56",
   "status": "proved",
   "theorems": [
    "C56_base_network_is_the_grid"
   ],
   "note": ""
  },
  {
   "property": "C57",
   "status": "proved",
   "theorems": [
    "C57_settings_are_the_last_assigned",
    "C57_assignment_changes_nothing_else"
   ],
   "note": ""
  },
  {
   "property": "C58",
   "status": "proved",
   "theorems": [
    "C58_inert_after_release",
    "C58_released_exactly_once",
    "C58_no_move_after_release",
    "C58_careful_clients_are_safe"
   ],
   "note": ""
  },
  {
   "property": "C59",
   "status": "proved",
   "theorems": [
    "C59_release_refuted",
    "C59_shared_with_animation_refuted",
    "C59_careful_clients_are_safe",
    "C59_last_reference_refuted"
   ],
   "note": ""
  },
  {
   "property": "C60",
   "status": "proved",
   "theorems": [
    "C60_values_looked_up",
    "C60_default_only_when_null",
    "C60_replaced",
    "C60_unknown_name_aborts"
   ],
   "note": ""
  },
  {
   "property": "C61",
   "status": "proved",
   "theorems": [
    "C61_objects_follow_native_model",
    "C61_queries_are_native",
    "C61_object_models_are_reached",
    "C61_careful_histories_return"
   ],
   "note": ""
  },
  {
   "property": "C62",
   "status": "proved",
   "theorems": [
    "C62_anchor_outlives_model_refuted"
   ],
   "note": ""
  },
  {
   "property": "C63",
   "status": "proved",
   "theorems": [
    "C63_settings_follow_assignments",
    "C63_properties_stay_in_range",
    "C63_settings_always_in_range_refuted"
   ],
   "note": ""
  },
  {
   "property": "C64",
   "status": "proved",
   "theorems": [
    "C64_null_vectors_refuted"
   ],
   "note": ""
  },
  {
   "property": "C65",
   "status": "proved",
   "theorems": [
    "C65_stepper_objects_private",
    "C65_animations_own_their_stepper",
    "C65_default_stepper",
    "C65_animations_independent"
   ],
   "note": ""
  },
  {
   "property": "C66",
   "status": "proved",
   "theorems": [
    "C66_constructed_as_given",
    "C66_construction_succeeds"
   ],
   "note": ""
  },
  {
   "property": "C67",
   "status": "proved",
   "theorems": [
    "C67_set_keeps_range",
    "C67_construction_unchecked_refuted",
    "C67_zero_length_refuted"
   ],
   "note": ""
  },
  {
   "property": "C68",
   "status": "proved",
   "theorems": [
    "C68_empty_from_collapses_float_refuted",
    "C68_empty_from_collapses_refuted"
   ],
   "note": ""
  },
  {
   "property": "C69",
   "status": "proved",
   "theorems": [
    "C69_glide_length_refuted",
    "C69_lamp_factors_refuted",
    "C69_bounce_and_zoom_new",
    "C69_glide_and_lamp_new"
   ],
   "note": ""
  },
  {
   "property": "C70",
   "status": "proved",
   "theorems": [
    "C70_reverse_object",
    "C70_default_base"
   ],
   "note": ""
  },
  {
   "property": "C71",
   "status": "proved",
   "theorems": [
    "C71_setter_changes_only_its_property",
    "C71_object_set_number",
    "C71_object_set_box",
    "C71_object_set_count",
    "C71_setter_of_box_or_count",
    "C71_target_is_given_once"
   ],
   "note": ""
  },
  {
   "property": "C72",
   "status": "proved",
   "theorems": [
    "C72_as_if_alone",
    "C72_every_model",
    "C72_made_objects_are_new"
   ],
   "note": ""
  },
  {
   "property": "C73",
   "status": "proved",
   "theorems": [
    "C73_setters_act_on_all_default_models",
    "C73_settings_in_force"
   ],
   "note": ""
  },
  {
   "property": "C74",
   "status": "proved",
   "theorems": [
    "C74_float_sizes_kept",
    "C74_size_error",
    "C74_size_kept_refuted"
   ],
   "note": ""
  },
  {
   "property": "C75",
   "status": "proved",
   "theorems": [
    "C75_queries_change_nothing",
    "C75_get_stepper_is_the_getter",
    "C75_matrix_is_a_view",
    "C75_null_arguments_are_refused",
    "C75_matrix_is_a_copy_refuted"
   ],
   "note": ""
  },
  {
   "property": "C76",
   "status": "proved",
   "theorems": [
    "C76_bounce_is_native",
    "C76_glide_is_native",
    "C76_zoom_is_native",
    "C76_lamp_is_native",
    "C76_transform_objects_end_where_they_belong",
    "C76_lamp_objects_end_on_target",
    "C76_full_stretch_refuted",
    "C76_lamp_resolution_fixed",
    "C76_lamp_queries_in_bounds"
   ],
   "note": ""
  },
  {
   "property": "C77",
   "status": "proved",
   "theorems": [
    "C77_get_is_the_getter",
    "C77_set_then_get",
    "C77_lamp_unreadable_refuted"
   ],
   "note": ""
  },
  {
   "property": "C78",
   "status": "proved",
   "theorems": [
    "C78_program_is_its_calls",
    "C78_one_owner_one_release"
   ],
   "note": ""
  },
  {
   "property": "C79",
   "status": "proved",
   "theorems": [
    "C79_scoped_anchors_are_safe",
    "C79_grabs_are_safe",
    "C79_one_at_a_time_is_safe",
    "C79_replacing_an_anchor_refuted"
   ],
   "note": ""
  },
  {
   "property": "C80",
   "status": "proved",
   "theorems": [
    "C80_move_by_empty_refuted",
    "C80_move_by_returns"
   ],
   "note": ""
  },
  {
   "property": "C81",
   "status": "proved",
   "theorems": [
    "C81_zoom_last_frame",
    "C81_bounce_last_frame",
    "C81_bounce_any_scale_refuted",
    "C81_glide_last_frame",
    "C81_pixels_are_exact",
    "C81_zoom_run_out",
    "C81_bounce_run_out",
    "C81_glide_run_out"
   ],
   "note": ""
  },
  {
   "property": "C82",
   "status": "proved",
   "theorems": [
    "C82_alive_while_referenced",
    "C82_careful_clients_are_safe",
    "C82_same_objects"
   ],
   "note": ""
  },
  {
   "property": "C83",
   "status": "proved",
   "theorems": [
    "C83_what_is_left",
    "C83_default_steppers_stay",
    "C83_default_resolutions_stay",
    "C83_all_released_refuted"
   ],
   "note": ""
  },
  {
   "property": "C84",
   "status": "proved",
   "theorems": [
    "C84_moves_for_ever_in_double_refuted",
    "C84_wobbling_ends_refuted",
    "C84_stalls_exactly_when",
    "C84_stall_lasts",
    "C84_strong_springs_move",
    "C84_moving_means_moving",
    "C84_wobbling_ends_in_double_refuted"
   ],
   "note": ""
  },
  {
   "property": "C85",
   "status": "proved",
   "theorems": [
    "C85_motion_dies_down",
    "C85_documented_ranges_are_damped",
    "C85_motion_dies_down_refuted"
   ],
   "note": ""
  },
  {
   "property": "C86",
   "status": "proved",
   "theorems": [
    "C86_linear_verdict",
    "C86_linear_accepts",
    "C86_parabolic_accepts",
    "C86_parabolic_sound",
    "C86_parabolic_flat_refuted",
    "C86_decay_from_one_above",
    "C86_decay_accepts_refuted"
   ],
   "note": ""
  },
  {
   "property": "C87",
   "status": "proved",
   "theorems": [
    "C87_points_equal_themselves",
    "C87_accepts_near_points",
    "C87_rejects_distant_points",
    "C87_infinite_points_refuted",
    "C87_integer_zero_refuted",
    "C87_integers"
   ],
   "note": ""
  },
  {
   "property": "C88",
   "status": "proved",
   "theorems": [
    "C88_step_obeys_the_law",
    "C88_law_determines_the_outcome"
   ],
   "note": ""
  },
  {
   "property": "C89",
   "status": "proved",
   "theorems": [
    "C89_calls_after_the_settings_are_gone",
    "C89_other_calls_ignore_the_settings",
    "C89_histories_without_the_settings",
    "C89_temporary_settings_refuted"
   ],
   "note": ""
  }
 ]
}