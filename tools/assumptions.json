{
"C01_one_atom_order": [],
"C01_two_atom_order": [],
"C02_one_atom_hash": [],
"C02_two_atom_hash": [],
"C03_one_atom_reflection": [],
"C03_two_atom_reflection": [],
"C04_match_iff": [],
"C04_match_two_iff": [],
"C04_match_exact": [],
"C04_match_monotone": [],
"C05_label_state": [],
"C05_number_state": [],
"C06_one_atom_pattern": [],
"C06_pair_pattern_partial": [],
"C06_pair_pattern_refuted": [],
"C06_state_index_one": [],
"C06_state_index_two": [],
"C07_symmetry_order": [],
"C08_linearizable": [],
"C08_progress": [],
"C09_no_race_partial": [],
"C09_clear_races_refuted": [],
"C10_sequential_partial": [],
"C10_missing_file_refuted": [],
"C10_modified_file_refuted": [],
"C11_same_database_partial": [],
"C11_smash_refuted": [],
"C11_wrong_database_refuted": [],
"C12_fallback": [],
"C12_exact": [],
"C13_multipole_forbidden": [
"ClassicalDedekindReals.sig_forall_dec",
"ClassicalDedekindReals.sig_not_dec",
"FunctionalExtensionality.functional_extensionality_dep"
],
"C13_rules_symmetric": [],
"C13_rules_q": [],
"C13_magnetic_forbidden_partial": [
"ClassicalDedekindReals.sig_forall_dec",
"ClassicalDedekindReals.sig_not_dec",
"FunctionalExtensionality.functional_extensionality_dep"
],
"C13_magnetic_refuted": [
"ClassicalDedekindReals.sig_forall_dec",
"ClassicalDedekindReals.sig_not_dec",
"FunctionalExtensionality.functional_extensionality_dep"
],
"C14_multipole_value": [
"ClassicalDedekindReals.sig_forall_dec",
"ClassicalDedekindReals.sig_not_dec",
"FunctionalExtensionality.functional_extensionality_dep"
],
"C14_magnetic_value": [
"ClassicalDedekindReals.sig_forall_dec",
"ClassicalDedekindReals.sig_not_dec",
"FunctionalExtensionality.functional_extensionality_dep"
],
"C14_multipole_adjoint": [
"ClassicalDedekindReals.sig_forall_dec",
"ClassicalDedekindReals.sig_not_dec",
"FunctionalExtensionality.functional_extensionality_dep"
],
"C14_magnetic_adjoint": [
"ClassicalDedekindReals.sig_forall_dec",
"ClassicalDedekindReals.sig_not_dec",
"FunctionalExtensionality.functional_extensionality_dep"
],
"C15_sound_partial": [],
"C15_complete_partial": [],
"C15_method_refuted": [],
"C15_getRadial_refuted": [],
"C16_before_use_partial": [
"ClassicalDedekindReals.sig_forall_dec",
"ClassicalDedekindReals.sig_not_dec",
"FunctionalExtensionality.functional_extensionality_dep"
],
"C16_after_use_refuted": [],
"C17_failure_poisons_refuted": [],
"C18_file_correct_partial": [],
"C18_nothing_before_commit_partial": [],
"C18_torn_commit_partial": [],
"C19_steps_deliver_rows": [],
"C19_unprepared_throws": [],
"C19_reset_restarts": [],
"C20_range_for_outcome": [],
"C20_refuted": [],
"C20_correct_iff_two_rows": [],
"C21_sets": [],
"C21_sets_two": [],
"C21_intervals_partial": [],
"C21_inverted_refuted": [],
"C21_half_integer_refuted": [],
"C22_exact_partial": [],
"C22_duplicate_throws": [],
"C22_parity_refuted": [],
"C22_parity_m_refuted": [],
"C22_triplet_refuted": [],
"C23_aligned_partial": [],
"C23_one_atom_partial": [],
"C23_add_refuted": [],
"C23_unitarize_refuted": [],
"C24_late_restriction": [],
"C24_nothing_left": [],
"C24_never_empty": [],
"C24_any_order": [],
"C25_idempotent": [],
"C25_late_states_reported": [],
"C26_value": [],
"C26_history_independent": [],
"C26_eigenvectors": [],
"C26_operator_entries": [],
"C27_buildInteraction_partial": [],
"C27_refuted": [],
"C28_constrain_partial": [],
"C28_refuted": [],
"C29_refused_forever": [],
"C29_memory_saving": [],
"C29_unitarize": [],
"C30_rejected_partial": [
"ClassicalDedekindReals.sig_forall_dec",
"ClassicalDedekindReals.sig_not_dec",
"FunctionalExtensionality.functional_extensionality_dep"
],
"C30_field_refuted": [
"ClassicalDedekindReals.sig_forall_dec",
"ClassicalDedekindReals.sig_not_dec",
"FunctionalExtensionality.functional_extensionality_dep"
],
"C30_symmetry_refuted": [
"ClassicalDedekindReals.sig_forall_dec",
"ClassicalDedekindReals.sig_not_dec",
"FunctionalExtensionality.functional_extensionality_dep"
],
"C30_surface_refuted": [
"ClassicalDedekindReals.sig_forall_dec",
"ClassicalDedekindReals.sig_not_dec",
"Classical_Prop.classic",
"FunctionalExtensionality.functional_extensionality_dep"
],
"C31_hermitian": [
"ClassicalDedekindReals.sig_forall_dec",
"ClassicalDedekindReals.sig_not_dec",
"FunctionalExtensionality.functional_extensionality_dep"
],
"C31_any_history": [
"ClassicalDedekindReals.sig_forall_dec",
"ClassicalDedekindReals.sig_not_dec",
"FunctionalExtensionality.functional_extensionality_dep"
],
"C32_get": [],
"C32_get_real_partial": [],
"C32_add": [],
"C32_set_partial": [],
"C32_get_refuted": [],
"C32_set_refuted": [],
"C32_add_refuted": [],
"C33_constrain_exact": [],
"C33_constrain_throws": [],
"C34_value": [],
"C34_total": [],
"C34_at_most_one": [
"ClassicalDedekindReals.sig_forall_dec",
"FunctionalExtensionality.functional_extensionality_dep"
],
"C35_value": [],
"C35_one_to_one": [],
"C35_systems": [],
"C36_distinct": [],
"C36_systems": [],
"C37_add_direct_sum": [],
"C38_one_real_partial": [],
"C38_one_complex_partial": [],
"C38_two_real_partial": [],
"C38_two_complex_partial": [],
"C38_cache_partial": [],
"C38_ion_refuted": [],
"C38_greentensor_refuted": [],
"C38_defectdb_refuted": [],
"C38_caches_refuted": [],
"C38_dangling_refuted": [],
"C38_leroy_refuted": [],
"C39_unitarize": [],
"C39_unitarize_iff": [],
"C40_permutation": [],
"C40_inversion": [],
"C40_combined": [],
"C40_orthonormal": [],
"C40_sectors": [],
"C40_exchange": [],
"C40_union": [],
"C40_permutation_union": [],
"C40_inversion_union": [],
"C40_user_partner": [],
"C41_accepted": [],
"C41_exact": [],
"C41_default": [],
"C41_empty_refuted": [],
"C42_sum_partial": [
"ClassicalDedekindReals.sig_forall_dec",
"ClassicalDedekindReals.sig_not_dec",
"FunctionalExtensionality.functional_extensionality_dep"
],
"C42_triplet_refuted": [
"ClassicalDedekindReals.sig_forall_dec",
"ClassicalDedekindReals.sig_not_dec",
"FunctionalExtensionality.functional_extensionality_dep"
],
"C42_fractional_refuted": [
"ClassicalDedekindReals.sig_forall_dec",
"ClassicalDedekindReals.sig_not_dec",
"FunctionalExtensionality.functional_extensionality_dep"
],
"C42_below_ground_refuted": [
"ClassicalDedekindReals.sig_forall_dec",
"ClassicalDedekindReals.sig_not_dec",
"FunctionalExtensionality.functional_extensionality_dep"
],
"C42_unbound_refuted": [
"ClassicalDedekindReals.sig_forall_dec",
"ClassicalDedekindReals.sig_not_dec",
"FunctionalExtensionality.functional_extensionality_dep"
],
"C43_equal_l_partial": [
"ClassicalDedekindReals.sig_forall_dec",
"ClassicalDedekindReals.sig_not_dec",
"FunctionalExtensionality.functional_extensionality_dep"
],
"C43_different_l_refuted": [
"ClassicalDedekindReals.sig_forall_dec",
"ClassicalDedekindReals.sig_not_dec",
"FunctionalExtensionality.functional_extensionality_dep"
],
"C43_different_l_coupled_refuted": [
"ClassicalDedekindReals.sig_forall_dec",
"ClassicalDedekindReals.sig_not_dec",
"FunctionalExtensionality.functional_extensionality_dep"
],
"C44_matrices_symmetric": [
"ClassicalDedekindReals.sig_forall_dec",
"FunctionalExtensionality.functional_extensionality_dep"
],
"C44_angle_terms": [
"ClassicalDedekindReals.sig_forall_dec",
"ClassicalDedekindReals.sig_not_dec",
"FunctionalExtensionality.functional_extensionality_dep"
],
"C44_angle_symmetry": [
"ClassicalDedekindReals.sig_forall_dec",
"ClassicalDedekindReals.sig_not_dec",
"FunctionalExtensionality.functional_extensionality_dep"
],
"C44_C3_value": [
"ClassicalDedekindReals.sig_forall_dec",
"ClassicalDedekindReals.sig_not_dec",
"FunctionalExtensionality.functional_extensionality_dep"
],
"C44_C6_single": [
"ClassicalDedekindReals.sig_forall_dec",
"ClassicalDedekindReals.sig_not_dec",
"FunctionalExtensionality.functional_extensionality_dep"
],
"C44_C6_order": [
"ClassicalDedekindReals.sig_forall_dec",
"ClassicalDedekindReals.sig_not_dec",
"FunctionalExtensionality.functional_extensionality_dep"
],
"C44_dipoles_hermitian": [
"ClassicalDedekindReals.sig_forall_dec",
"ClassicalDedekindReals.sig_not_dec",
"FunctionalExtensionality.functional_extensionality_dep"
],
"C45_hessian": [
"ClassicalDedekindReals.sig_forall_dec",
"ClassicalDedekindReals.sig_not_dec",
"Classical_Prop.classic",
"FunctionalExtensionality.functional_extensionality_dep"
],
"C45_gradient": [
"ClassicalDedekindReals.sig_forall_dec",
"ClassicalDedekindReals.sig_not_dec",
"Classical_Prop.classic",
"FunctionalExtensionality.functional_extensionality_dep"
],
"C45_symmetric_traceless": [
"ClassicalDedekindReals.sig_forall_dec",
"ClassicalDedekindReals.sig_not_dec",
"FunctionalExtensionality.functional_extensionality_dep"
],
"C46_dipole_image": [
"ClassicalDedekindReals.sig_forall_dec",
"ClassicalDedekindReals.sig_not_dec",
"FunctionalExtensionality.functional_extensionality_dep"
],
"C46_gradients_partial": [
"ClassicalDedekindReals.sig_forall_dec",
"ClassicalDedekindReals.sig_not_dec",
"Classical_Prop.classic",
"FunctionalExtensionality.functional_extensionality_dep"
],
"C46_y_derivative_refuted": [
"ClassicalDedekindReals.sig_forall_dec",
"ClassicalDedekindReals.sig_not_dec",
"Classical_Prop.classic",
"FunctionalExtensionality.functional_extensionality_dep"
],
"C46_divergence_refuted": [
"ClassicalDedekindReals.sig_forall_dec",
"ClassicalDedekindReals.sig_not_dec",
"FunctionalExtensionality.functional_extensionality_dep"
],
"C47_tensors_current_partial": [
"ClassicalDedekindReals.sig_forall_dec",
"ClassicalDedekindReals.sig_not_dec",
"Classical_Prop.classic",
"FunctionalExtensionality.functional_extensionality_dep"
],
"C47_failed_surface_refuted": [
"ClassicalDedekindReals.sig_forall_dec",
"ClassicalDedekindReals.sig_not_dec",
"Classical_Prop.classic",
"FunctionalExtensionality.functional_extensionality_dep"
],
"C47_inside_plate_refuted": [
"ClassicalDedekindReals.sig_forall_dec",
"ClassicalDedekindReals.sig_not_dec",
"Classical_Prop.classic",
"FunctionalExtensionality.functional_extensionality_dep"
],
"C47_rejection_sound": [
"ClassicalDedekindReals.sig_forall_dec",
"ClassicalDedekindReals.sig_not_dec",
"Classical_Prop.classic",
"FunctionalExtensionality.functional_extensionality_dep"
],
"C48_roundtrip": [],
"C48_writes": [],
"C48_truncated": [],
"C48_appends": [],
"C49_safe": [],
"C50_roundtrip_partial": [],
"C50_truncated": [],
"C50_writes": [],
"C50_last_column_refuted": [],
"C50_other_scalar": [],
"C50_cereal": [],
"C51_two_partial": [],
"C51_one_partial": [],
"C51_unstorable_refuted": [],
"C52_partial": [],
"C52_refuted": [],
"C53_two": [],
"C53_one_partial": [],
"C53_one_refuted": [],
"C54_one_partial": [],
"C54_m_refuted": [],
"C54_both_partial": [],
"C54_both_m_refuted": [],
"C54_once": [],
"C54_both_once": [],
"C55_indices": [],
"C55_both_indices": [],
"C55_one": [],
"C55_again": [],
"C55_short_mask": [],
"C55_rowmajor": [],
"C55_two": [],
"C55_keep": [],
"C55_initial": [],
"C55_from_two": [],
"C56_append": [],
"C56_equal": [],
"C56_const_access": [],
"C56_access": [],
"C56_write": [],
"C56_json_partial": [],
"C56_json_dot_refuted": [],
"C56_json_written": [],
"C56_json_empty_key": [],
"C56_count": [],
"C57_result": [
"ClassicalDedekindReals.sig_forall_dec",
"ClassicalDedekindReals.sig_not_dec",
"Classical_Prop.classic",
"FunctionalExtensionality.functional_extensionality_dep"
],
"C57_found": [
"ClassicalDedekindReals.sig_forall_dec",
"ClassicalDedekindReals.sig_not_dec",
"Classical_Prop.classic",
"FunctionalExtensionality.functional_extensionality_dep"
],
"C57_grid": [
"ClassicalDedekindReals.sig_forall_dec",
"ClassicalDedekindReals.sig_not_dec",
"Classical_Prop.classic",
"FunctionalExtensionality.functional_extensionality_dep"
],
"C58_dimensions_partial": [],
"C58_canonicalize_refuted": [],
"C58_window_refuted": [
"ClassicalDedekindReals.sig_forall_dec",
"ClassicalDedekindReals.sig_not_dec",
"FunctionalExtensionality.functional_extensionality_dep"
],
"C59_columns": [],
"C59_orthonormal": [],
"C59_real_scalars": [],
"C59_parity_partial": [],
"C59_integer_refuted": [],
"C59_m0_refuted": [],
"C59_opposite": [],
"C60_length": [
"ClassicalDedekindReals.sig_forall_dec",
"ClassicalDedekindReals.sig_not_dec",
"FunctionalExtensionality.functional_extensionality_dep"
],
"C60_setters": [
"ClassicalDedekindReals.sig_forall_dec",
"ClassicalDedekindReals.sig_not_dec",
"FunctionalExtensionality.functional_extensionality_dep"
],
"C60_commute": [
"ClassicalDedekindReals.sig_forall_dec",
"ClassicalDedekindReals.sig_not_dec",
"FunctionalExtensionality.functional_extensionality_dep"
],
"C61_labels": [
"ClassicalDedekindReals.sig_forall_dec",
"FunctionalExtensionality.functional_extensionality_dep"
],
"C62_setters": [
"ClassicalDedekindReals.sig_forall_dec",
"ClassicalDedekindReals.sig_not_dec",
"FunctionalExtensionality.functional_extensionality_dep"
],
"C62_new": [
"ClassicalDedekindReals.sig_forall_dec"
],
"C62_value": [
"ClassicalDedekindReals.sig_forall_dec",
"ClassicalDedekindReals.sig_not_dec",
"FunctionalExtensionality.functional_extensionality_dep"
],
"C62_dipole_cartesian": [
"ClassicalDedekindReals.sig_forall_dec",
"ClassicalDedekindReals.sig_not_dec",
"FunctionalExtensionality.functional_extensionality_dep"
],
"C62_diamagnetic_cartesian": [
"ClassicalDedekindReals.sig_forall_dec",
"ClassicalDedekindReals.sig_not_dec",
"FunctionalExtensionality.functional_extensionality_dep"
],
"C63_lost_refuted": [],
"C64_main_states": [],
"C65_physics": [
"ClassicalDedekindReals.sig_forall_dec",
"ClassicalDedekindReals.sig_not_dec",
"Classical_Prop.classic",
"FunctionalExtensionality.functional_extensionality_dep"
],
"C65_switch": [
"ClassicalDedekindReals.sig_forall_dec",
"ClassicalDedekindReals.sig_not_dec",
"Classical_Prop.classic",
"FunctionalExtensionality.functional_extensionality_dep"
],
"C65_approaches_agree": [
"ClassicalDedekindReals.sig_forall_dec",
"ClassicalDedekindReals.sig_not_dec",
"Classical_Prop.classic",
"FunctionalExtensionality.functional_extensionality_dep"
],
"C65_real_scalar": [
"ClassicalDedekindReals.sig_forall_dec",
"ClassicalDedekindReals.sig_not_dec",
"Classical_Prop.classic",
"FunctionalExtensionality.functional_extensionality_dep"
],
"C65_errors": [
"ClassicalDedekindReals.sig_forall_dec",
"ClassicalDedekindReals.sig_not_dec",
"Classical_Prop.classic",
"FunctionalExtensionality.functional_extensionality_dep"
],
"C66_table": [
"ClassicalDedekindReals.sig_forall_dec",
"ClassicalDedekindReals.sig_not_dec",
"FunctionalExtensionality.functional_extensionality_dep"
],
"C66_axis_agree_partial": [
"ClassicalDedekindReals.sig_forall_dec",
"ClassicalDedekindReals.sig_not_dec",
"Classical_Prop.classic",
"FunctionalExtensionality.functional_extensionality_dep"
],
"C66_axis_refuted": [
"ClassicalDedekindReals.sig_forall_dec",
"ClassicalDedekindReals.sig_not_dec",
"Classical_Prop.classic",
"FunctionalExtensionality.functional_extensionality_dep"
],
"C66_contraction": [
"ClassicalDedekindReals.sig_forall_dec",
"ClassicalDedekindReals.sig_not_dec",
"FunctionalExtensionality.functional_extensionality_dep"
],
"C66_trace_free": [
"ClassicalDedekindReals.sig_forall_dec",
"ClassicalDedekindReals.sig_not_dec",
"FunctionalExtensionality.functional_extensionality_dep"
],
"C67_int": [],
"C67_double_partial": [],
"C67_double_refuted": [],
"C68_same_conf_refuted": [],
"C69_rows": [
"ClassicalDedekindReals.sig_forall_dec",
"ClassicalDedekindReals.sig_not_dec",
"Classical_Prop.classic",
"FunctionalExtensionality.functional_extensionality_dep"
],
"C69_radius": [
"ClassicalDedekindReals.sig_forall_dec",
"ClassicalDedekindReals.sig_not_dec",
"Classical_Prop.classic",
"FunctionalExtensionality.functional_extensionality_dep"
],
"C69_symmetric": [
"ClassicalDedekindReals.sig_forall_dec",
"ClassicalDedekindReals.sig_not_dec",
"Classical_Prop.classic",
"FunctionalExtensionality.functional_extensionality_dep"
],
"C69_value": [
"ClassicalDedekindReals.sig_forall_dec",
"ClassicalDedekindReals.sig_not_dec",
"Classical_Prop.classic",
"FunctionalExtensionality.functional_extensionality_dep"
],
"C70_norm": [
"ClassicalDedekindReals.sig_forall_dec",
"ClassicalDedekindReals.sig_not_dec",
"Classical_Prop.classic",
"FunctionalExtensionality.functional_extensionality_dep"
],
"C70_rounded": [
"ClassicalDedekindReals.sig_forall_dec",
"ClassicalDedekindReals.sig_not_dec",
"Classical_Prop.classic",
"FunctionalExtensionality.functional_extensionality_dep"
],
"C71_truncated_one": [],
"C71_truncated_one_complex": [],
"C71_truncated_two": [],
"C71_truncated_two_complex": [],
"C71_trailing": [],
"C72_formula": [
"ClassicalDedekindReals.sig_forall_dec",
"ClassicalDedekindReals.sig_not_dec",
"Classical_Prop.classic",
"FunctionalExtensionality.functional_extensionality_dep"
],
"C72_three_angles": [
"ClassicalDedekindReals.sig_forall_dec",
"ClassicalDedekindReals.sig_not_dec",
"Classical_Prop.classic",
"FunctionalExtensionality.functional_extensionality_dep"
],
"C72_levels": [],
"C72_unitary": [
"ClassicalDedekindReals.sig_forall_dec",
"ClassicalDedekindReals.sig_not_dec",
"Classical_Prop.classic",
"FunctionalExtensionality.functional_extensionality_dep"
],
"C72_addition": [
"ClassicalDedekindReals.sig_forall_dec",
"ClassicalDedekindReals.sig_not_dec",
"Classical_Prop.classic",
"FunctionalExtensionality.functional_extensionality_dep"
],
"C72_inverse": [
"ClassicalDedekindReals.sig_forall_dec",
"ClassicalDedekindReals.sig_not_dec",
"Classical_Prop.classic",
"FunctionalExtensionality.functional_extensionality_dep"
],
"C72_identity": [
"ClassicalDedekindReals.sig_forall_dec",
"ClassicalDedekindReals.sig_not_dec",
"Classical_Prop.classic",
"FunctionalExtensionality.functional_extensionality_dep"
],
"C73_entries": [
"ClassicalDedekindReals.sig_forall_dec",
"ClassicalDedekindReals.sig_not_dec",
"Classical_Prop.classic",
"FunctionalExtensionality.functional_extensionality_dep"
],
"C73_orthonormal": [
"ClassicalDedekindReals.sig_forall_dec",
"ClassicalDedekindReals.sig_not_dec",
"Classical_Prop.classic",
"FunctionalExtensionality.functional_extensionality_dep"
],
"C73_orthonormal_pairs": [
"ClassicalDedekindReals.sig_forall_dec",
"ClassicalDedekindReals.sig_not_dec",
"Classical_Prop.classic",
"FunctionalExtensionality.functional_extensionality_dep"
],
"C73_inverse": [
"ClassicalDedekindReals.sig_forall_dec",
"ClassicalDedekindReals.sig_not_dec",
"Classical_Prop.classic",
"FunctionalExtensionality.functional_extensionality_dep"
],
"C73_inverse_pairs": [
"ClassicalDedekindReals.sig_forall_dec",
"ClassicalDedekindReals.sig_not_dec",
"Classical_Prop.classic",
"FunctionalExtensionality.functional_extensionality_dep"
],
"C73_identity": [
"ClassicalDedekindReals.sig_forall_dec",
"ClassicalDedekindReals.sig_not_dec",
"Classical_Prop.classic",
"FunctionalExtensionality.functional_extensionality_dep"
],
"C73_identity_pairs": [
"ClassicalDedekindReals.sig_forall_dec",
"ClassicalDedekindReals.sig_not_dec",
"Classical_Prop.classic",
"FunctionalExtensionality.functional_extensionality_dep"
],
"C73_composition": [
"ClassicalDedekindReals.sig_forall_dec",
"ClassicalDedekindReals.sig_not_dec",
"Classical_Prop.classic",
"FunctionalExtensionality.functional_extensionality_dep"
],
"C73_composition_pairs": [
"ClassicalDedekindReals.sig_forall_dec",
"ClassicalDedekindReals.sig_not_dec",
"Classical_Prop.classic",
"FunctionalExtensionality.functional_extensionality_dep"
],
"C73_norm": [
"ClassicalDedekindReals.sig_forall_dec",
"ClassicalDedekindReals.sig_not_dec",
"Classical_Prop.classic",
"FunctionalExtensionality.functional_extensionality_dep"
],
"C73_norm_pairs": [
"ClassicalDedekindReals.sig_forall_dec",
"ClassicalDedekindReals.sig_not_dec",
"Classical_Prop.classic",
"FunctionalExtensionality.functional_extensionality_dep"
],
"C73_unit": [
"ClassicalDedekindReals.sig_forall_dec",
"ClassicalDedekindReals.sig_not_dec",
"Classical_Prop.classic",
"FunctionalExtensionality.functional_extensionality_dep"
],
"C73_unit_pairs": [
"ClassicalDedekindReals.sig_forall_dec",
"ClassicalDedekindReals.sig_not_dec",
"Classical_Prop.classic",
"FunctionalExtensionality.functional_extensionality_dep"
],
"C73_artificial": [
"ClassicalDedekindReals.sig_forall_dec",
"ClassicalDedekindReals.sig_not_dec",
"Classical_Prop.classic",
"FunctionalExtensionality.functional_extensionality_dep"
],
"C73_real": [
"ClassicalDedekindReals.sig_forall_dec",
"ClassicalDedekindReals.sig_not_dec",
"Classical_Prop.classic",
"FunctionalExtensionality.functional_extensionality_dep"
],
"C74_axes": [
"ClassicalDedekindReals.sig_forall_dec",
"ClassicalDedekindReals.sig_not_dec",
"FunctionalExtensionality.functional_extensionality_dep"
],
"C74_refused": [
"ClassicalDedekindReals.sig_forall_dec",
"ClassicalDedekindReals.sig_not_dec",
"FunctionalExtensionality.functional_extensionality_dep"
],
"C74_angles": [
"ClassicalDedekindReals.sig_forall_dec",
"ClassicalDedekindReals.sig_not_dec",
"FunctionalExtensionality.functional_extensionality_dep"
],
"C74_angles_axes": [
"ClassicalDedekindReals.sig_forall_dec",
"ClassicalDedekindReals.sig_not_dec",
"FunctionalExtensionality.functional_extensionality_dep"
],
"C74_states": [
"ClassicalDedekindReals.sig_forall_dec",
"ClassicalDedekindReals.sig_not_dec",
"Classical_Prop.classic",
"FunctionalExtensionality.functional_extensionality_dep"
],
"C74_zero_field": [
"ClassicalDedekindReals.sig_forall_dec",
"ClassicalDedekindReals.sig_not_dec",
"FunctionalExtensionality.functional_extensionality_dep"
],
"C75_effective_partial": [
"ClassicalDedekindReals.sig_forall_dec",
"FunctionalExtensionality.functional_extensionality_dep"
],
"C75_unique": [
"ClassicalDedekindReals.sig_forall_dec",
"FunctionalExtensionality.functional_extensionality_dep"
],
"C75_refuses": [
"ClassicalDedekindReals.sig_forall_dec",
"FunctionalExtensionality.functional_extensionality_dep"
],
"C75_more_vectors_refuted": [
"ClassicalDedekindReals.sig_forall_dec",
"FunctionalExtensionality.functional_extensionality_dep"
],
"C75_later_refuted": [],
"C76_product": [],
"C76_rotation_partial": [],
"C76_permutation": [],
"C76_inversion_partial": [],
"C76_inversion_permutation_partial": [],
"C76_permutation_complete": [],
"C76_inversion_complete_partial": [],
"C76_reflection_partial": [],
"C76_inversion_mixed_refuted": [],
"C76_rotation_mixed_refuted": [],
"C76_reflection_open_refuted": [],
"C76_reflection_permutation_refuted": [],
"C77_exact": [],
"C77_covers": [],
"C77_covers_reflection_partial": [],
"C77_covers_magnetic_refuted": [],
"C77_threads_partial": [],
"C77_threads_refuted": [],
"C77_blocks_partial": [],
"C77_symmetries": [],
"C77_all_states": [],
"C78_restrict": [],
"C78_valid": [],
"C78_near_partial": [],
"C78_near_kept": [],
"C78_initial_kept": [],
"C78_near_refuted": [],
"C78_energies": [],
"C78_short_vectors": [],
"C78_orthonormal_refuted": [],
"C79_entries": [
"ClassicalDedekindReals.sig_forall_dec",
"ClassicalDedekindReals.sig_not_dec",
"FunctionalExtensionality.functional_extensionality_dep"
],
"C79_library": [
"ClassicalDedekindReals.sig_forall_dec",
"ClassicalDedekindReals.sig_not_dec",
"FunctionalExtensionality.functional_extensionality_dep"
],
"C79_total": [
"ClassicalDedekindReals.sig_forall_dec",
"ClassicalDedekindReals.sig_not_dec",
"FunctionalExtensionality.functional_extensionality_dep"
],
"C79_elements": [
"ClassicalDedekindReals.sig_forall_dec",
"ClassicalDedekindReals.sig_not_dec",
"Classical_Prop.classic",
"FunctionalExtensionality.functional_extensionality_dep"
],
"C80_value_partial": [
"ClassicalDedekindReals.sig_forall_dec",
"ClassicalDedekindReals.sig_not_dec",
"FunctionalExtensionality.functional_extensionality_dep"
],
"C80_value_exact": [
"ClassicalDedekindReals.sig_forall_dec",
"ClassicalDedekindReals.sig_not_dec",
"FunctionalExtensionality.functional_extensionality_dep"
],
"C80_steps": [
"ClassicalDedekindReals.sig_forall_dec",
"FunctionalExtensionality.functional_extensionality_dep"
],
"C80_real": [
"ClassicalDedekindReals.sig_forall_dec",
"ClassicalDedekindReals.sig_not_dec",
"FunctionalExtensionality.functional_extensionality_dep"
],
"C80_quadrupole_refuted": [
"ClassicalDedekindReals.sig_forall_dec",
"ClassicalDedekindReals.sig_not_dec",
"FunctionalExtensionality.functional_extensionality_dep"
],
"C80_elements": [
"ClassicalDedekindReals.sig_forall_dec",
"ClassicalDedekindReals.sig_not_dec",
"Classical_Prop.classic",
"FunctionalExtensionality.functional_extensionality_dep"
],
"C81_value": [
"ClassicalDedekindReals.sig_forall_dec",
"ClassicalDedekindReals.sig_not_dec",
"Classical_Prop.classic",
"FunctionalExtensionality.functional_extensionality_dep"
],
"C81_options": [
"ClassicalDedekindReals.sig_forall_dec",
"ClassicalDedekindReals.sig_not_dec",
"Classical_Prop.classic",
"FunctionalExtensionality.functional_extensionality_dep"
],
"C81_error": [
"ClassicalDedekindReals.sig_forall_dec",
"ClassicalDedekindReals.sig_not_dec",
"Classical_Prop.classic",
"FunctionalExtensionality.functional_extensionality_dep"
],
"C81_file": [
"ClassicalDedekindReals.sig_forall_dec",
"ClassicalDedekindReals.sig_not_dec",
"Classical_Prop.classic",
"FunctionalExtensionality.functional_extensionality_dep"
],
"C81_program": [],
"C81_pairs": [],
"C81_library": [
"ClassicalDedekindReals.sig_forall_dec",
"ClassicalDedekindReals.sig_not_dec",
"FunctionalExtensionality.functional_extensionality_dep"
],
"C82_later_runs": [
"ClassicalDedekindReals.sig_forall_dec",
"ClassicalDedekindReals.sig_not_dec",
"Classical_Prop.classic",
"FunctionalExtensionality.functional_extensionality_dep"
],
"C82_failed_run": [
"ClassicalDedekindReals.sig_forall_dec",
"ClassicalDedekindReals.sig_not_dec",
"Classical_Prop.classic",
"FunctionalExtensionality.functional_extensionality_dep"
],
"C82_first_run_refuted": [
"ClassicalDedekindReals.sig_forall_dec",
"ClassicalDedekindReals.sig_not_dec",
"Classical_Prop.classic",
"FunctionalExtensionality.functional_extensionality_dep"
],
"C82_two_processes_refuted": [
"ClassicalDedekindReals.sig_forall_dec",
"ClassicalDedekindReals.sig_not_dec",
"Classical_Prop.classic",
"FunctionalExtensionality.functional_extensionality_dep"
],
"C82_switched_off_refuted": [
"ClassicalDedekindReals.sig_forall_dec",
"ClassicalDedekindReals.sig_not_dec",
"Classical_Prop.classic",
"FunctionalExtensionality.functional_extensionality_dep"
],
"C83_vector": [],
"C83_dense": [],
"C83_sparse": [],
"C83_accepted": [],
"C83_as_dense": [],
"C83_as_vector": [],
"C83_as_sparse": [],
"C83_roundtrip_dense": [],
"C83_roundtrip_sparse": [],
"C84_value": [],
"C84_view": [],
"C84_stale_refuted": [],
"C84_temporary_refuted": [],
"C84_write_refuted": [],
"C85_species_refuted": [],
"C85_overlap_index_refuted": [],
"C85_too_many_refuted": [],
"C85_empty_vector_refuted": [],
"C85_negative_distance_refuted": [
"ClassicalDedekindReals.sig_forall_dec",
"ClassicalDedekindReals.sig_not_dec",
"Classical_Prop.classic",
"FunctionalExtensionality.functional_extensionality_dep"
],
"C85_zero_distance_refuted": [
"ClassicalDedekindReals.sig_forall_dec",
"ClassicalDedekindReals.sig_not_dec",
"Classical_Prop.classic",
"FunctionalExtensionality.functional_extensionality_dep"
],
"C85_tolerance_refuted": [
"ClassicalDedekindReals.sig_forall_dec",
"ClassicalDedekindReals.sig_not_dec",
"Classical_Prop.classic",
"FunctionalExtensionality.functional_extensionality_dep"
],
"C85_pair_index_refuted": [],
"C85_nonbytes_refuted": [],
"C85_axis_refuted": [
"ClassicalDedekindReals.sig_forall_dec",
"ClassicalDedekindReals.sig_not_dec",
"FunctionalExtensionality.functional_extensionality_dep"
],
"C85_scalar_array_refuted": [],
"C85_index_type_refuted": [],
"C86_archive_refuted": [],
"C86_archive_half_refuted": [],
"C86_empty_refuted": [],
"C86_python_refuted": [],
"C87_low_order_refuted": [
"ClassicalDedekindReals.sig_forall_dec",
"ClassicalDedekindReals.sig_not_dec",
"Classical_Prop.classic",
"FunctionalExtensionality.functional_extensionality_dep"
],
"C88_missing_refuted": [
"ClassicalDedekindReals.sig_forall_dec",
"ClassicalDedekindReals.sig_not_dec",
"Classical_Prop.classic",
"FunctionalExtensionality.functional_extensionality_dep"
],
"C89_coupling_refuted": [],
"C90_rotate_refuted": [],
"C90_unitarize_refuted": [],
"C91_statement_refuted": [],
"C91_basis_refuted": [],
"C91_window_refuted": [
"ClassicalDedekindReals.sig_forall_dec",
"ClassicalDedekindReals.sig_not_dec",
"FunctionalExtensionality.functional_extensionality_dep"
],
"C92_early_refuted": [
"ClassicalDedekindReals.sig_forall_dec",
"ClassicalDedekindReals.sig_not_dec",
"Classical_Prop.classic",
"FunctionalExtensionality.functional_extensionality_dep"
],
"C93_sizes_partial": [],
"C93_damaged_refuted": [],
"C94_mixed_parity_refuted": [],
"C94_different_systems_refuted": [],
"C94_reflection_refuted": [],
"C94_artificial_refuted": [],
"C94_half_integer_refuted": [],
"C94_dropped_refuted": [],
"C95_greedy_refuted": [],
"C96_inversion": [
"ClassicalDedekindReals.sig_forall_dec",
"ClassicalDedekindReals.sig_not_dec",
"FunctionalExtensionality.functional_extensionality_dep"
],
"C96_permutation": [
"ClassicalDedekindReals.sig_forall_dec",
"ClassicalDedekindReals.sig_not_dec",
"FunctionalExtensionality.functional_extensionality_dep"
],
"C96_reflection": [
"ClassicalDedekindReals.sig_forall_dec",
"ClassicalDedekindReals.sig_not_dec",
"FunctionalExtensionality.functional_extensionality_dep"
],
"C96_rotation": [
"ClassicalDedekindReals.sig_forall_dec",
"ClassicalDedekindReals.sig_not_dec",
"FunctionalExtensionality.functional_extensionality_dep"
],
"C97_permutation_refuted": [
"ClassicalDedekindReals.sig_forall_dec",
"ClassicalDedekindReals.sig_not_dec",
"FunctionalExtensionality.functional_extensionality_dep"
],
"C98_hermitian": [
"ClassicalDedekindReals.sig_forall_dec",
"ClassicalDedekindReals.sig_not_dec",
"Classical_Prop.classic",
"FunctionalExtensionality.functional_extensionality_dep"
],
"C98_matrix": [
"ClassicalDedekindReals.sig_forall_dec",
"ClassicalDedekindReals.sig_not_dec",
"Classical_Prop.classic",
"FunctionalExtensionality.functional_extensionality_dep"
],
"C98_entry_exact": [
"ClassicalDedekindReals.sig_forall_dec",
"ClassicalDedekindReals.sig_not_dec",
"Classical_Prop.classic",
"FunctionalExtensionality.functional_extensionality_dep"
],
"C99_reflection": [
"ClassicalDedekindReals.sig_forall_dec",
"ClassicalDedekindReals.sig_not_dec",
"Classical_Prop.classic",
"FunctionalExtensionality.functional_extensionality_dep"
],
"C99_rotation": [
"ClassicalDedekindReals.sig_forall_dec",
"ClassicalDedekindReals.sig_not_dec",
"Classical_Prop.classic",
"FunctionalExtensionality.functional_extensionality_dep"
],
"C99_rotation_sectors": [
"ClassicalDedekindReals.sig_forall_dec",
"ClassicalDedekindReals.sig_not_dec",
"Classical_Prop.classic",
"FunctionalExtensionality.functional_extensionality_dep"
],
"C99_reflection_sectors": [
"ClassicalDedekindReals.sig_forall_dec",
"ClassicalDedekindReals.sig_not_dec",
"Classical_Prop.classic",
"FunctionalExtensionality.functional_extensionality_dep"
],
"C99_inversion": [
"ClassicalDedekindReals.sig_forall_dec",
"ClassicalDedekindReals.sig_not_dec",
"Classical_Prop.classic",
"FunctionalExtensionality.functional_extensionality_dep"
],
"C99_permutation": [
"ClassicalDedekindReals.sig_forall_dec",
"ClassicalDedekindReals.sig_not_dec",
"Classical_Prop.classic",
"FunctionalExtensionality.functional_extensionality_dep"
],
"C99_inversion_sectors": [
"ClassicalDedekindReals.sig_forall_dec",
"ClassicalDedekindReals.sig_not_dec",
"Classical_Prop.classic",
"FunctionalExtensionality.functional_extensionality_dep"
],
"C99_permutation_sectors": [
"ClassicalDedekindReals.sig_forall_dec",
"ClassicalDedekindReals.sig_not_dec",
"Classical_Prop.classic",
"FunctionalExtensionality.functional_extensionality_dep"
],
"C99_permutation_refuted": [
"ClassicalDedekindReals.sig_forall_dec",
"ClassicalDedekindReals.sig_not_dec",
"Classical_Prop.classic",
"FunctionalExtensionality.functional_extensionality_dep"
],
"C99_offaxis_refuted": [
"ClassicalDedekindReals.sig_forall_dec",
"ClassicalDedekindReals.sig_not_dec",
"Classical_Prop.classic",
"FunctionalExtensionality.functional_extensionality_dep"
],
"C99_surface_rotation_refuted": [
"ClassicalDedekindReals.sig_forall_dec",
"ClassicalDedekindReals.sig_not_dec",
"Classical_Prop.classic",
"FunctionalExtensionality.functional_extensionality_dep"
],
"C100_true_partial": [
"ClassicalDedekindReals.sig_forall_dec",
"ClassicalDedekindReals.sig_not_dec",
"FunctionalExtensionality.functional_extensionality_dep"
],
"C100_exact_partial": [
"ClassicalDedekindReals.sig_forall_dec",
"ClassicalDedekindReals.sig_not_dec",
"FunctionalExtensionality.functional_extensionality_dep"
],
"C100_hydrogen": [
"ClassicalDedekindReals.sig_forall_dec",
"ClassicalDedekindReals.sig_not_dec",
"FunctionalExtensionality.functional_extensionality_dep"
],
"C100_formula": [
"ClassicalDedekindReals.sig_forall_dec",
"FunctionalExtensionality.functional_extensionality_dep"
],
"C100_larger_states_refuted": [
"ClassicalDedekindReals.sig_forall_dec",
"ClassicalDedekindReals.sig_not_dec",
"FunctionalExtensionality.functional_extensionality_dep"
],
"C100_added_refuted": [
"ClassicalDedekindReals.sig_forall_dec",
"ClassicalDedekindReals.sig_not_dec",
"FunctionalExtensionality.functional_extensionality_dep"
],
"C100_exception_refuted": [
"ClassicalDedekindReals.sig_forall_dec",
"ClassicalDedekindReals.sig_not_dec",
"FunctionalExtensionality.functional_extensionality_dep"
],
"C101_value_partial": [
"ClassicalDedekindReals.sig_forall_dec",
"ClassicalDedekindReals.sig_not_dec",
"FunctionalExtensionality.functional_extensionality_dep"
],
"C101_other_order_partial": [
"ClassicalDedekindReals.sig_forall_dec",
"ClassicalDedekindReals.sig_not_dec",
"FunctionalExtensionality.functional_extensionality_dep"
],
"C101_others": [],
"C101_returns": [],
"C101_bad_line_refuted": [],
"C101_other_order_refuted": [
"ClassicalDedekindReals.sig_forall_dec",
"ClassicalDedekindReals.sig_not_dec",
"FunctionalExtensionality.functional_extensionality_dep"
],
"C101_forbidden_refuted": [
"ClassicalDedekindReals.sig_forall_dec",
"ClassicalDedekindReals.sig_not_dec",
"FunctionalExtensionality.functional_extensionality_dep"
],
"C102_extends": [],
"C102_refused": [],
"C102_accepted": [],
"C103_threshold": [
"ClassicalDedekindReals.sig_forall_dec",
"ClassicalDedekindReals.sig_not_dec",
"FunctionalExtensionality.functional_extensionality_dep"
],
"C103_window_partial": [
"ClassicalDedekindReals.sig_forall_dec",
"ClassicalDedekindReals.sig_not_dec",
"FunctionalExtensionality.functional_extensionality_dep"
],
"C103_wide_window": [
"ClassicalDedekindReals.sig_forall_dec",
"ClassicalDedekindReals.sig_not_dec",
"FunctionalExtensionality.functional_extensionality_dep"
],
"C103_diagonal_refuted": [
"ClassicalDedekindReals.sig_forall_dec",
"ClassicalDedekindReals.sig_not_dec",
"FunctionalExtensionality.functional_extensionality_dep"
],
"C103_without_mkl_refuted": [
"ClassicalDedekindReals.sig_forall_dec",
"FunctionalExtensionality.functional_extensionality_dep"
],
"C103_empty_refuted": [
"ClassicalDedekindReals.sig_forall_dec",
"ClassicalDedekindReals.sig_not_dec",
"FunctionalExtensionality.functional_extensionality_dep"
],
"C103_estimate_refuted": [
"ClassicalDedekindReals.sig_forall_dec",
"ClassicalDedekindReals.sig_not_dec",
"FunctionalExtensionality.functional_extensionality_dep"
],
"C103_normalized_refuted": [
"ClassicalDedekindReals.sig_forall_dec",
"FunctionalExtensionality.functional_extensionality_dep"
],
"C104_options": [],
"C104_refused": [],
"C104_unknown": [],
"C104_end": [],
"C104_calculations_partial": [],
"C104_samebasis_refuted": [],
"C104_species": [],
"C105_one": [],
"C105_two": [],
"C105_pair_atoms": [],
"C105_cache_one_partial": [],
"C105_cache_two_partial": [],
"C105_shared": [],
"C106_one": [],
"C106_two_partial": [],
"C106_zero_refuted": [],
"C107_eigen": [
"ClassicalDedekindReals.sig_forall_dec",
"ClassicalDedekindReals.sig_not_dec",
"FunctionalExtensionality.functional_extensionality_dep"
],
"C108_locked": [],
"C108_kept": [],
"C108_build": [],
"C108_consistent": [],
"C108_accepted": [],
"C108_when": [],
"C108_refused_refuted": [],
"C108_still": [],
"C108_choice_refuted": [],
"C108_failed_refuted": [],
"C109_equation": [
"ClassicalDedekindReals.sig_forall_dec",
"ClassicalDedekindReals.sig_not_dec",
"Classical_Prop.classic",
"FunctionalExtensionality.functional_extensionality_dep"
],
"C109_weights": [
"ClassicalDedekindReals.sig_forall_dec",
"ClassicalDedekindReals.sig_not_dec",
"Classical_Prop.classic",
"FunctionalExtensionality.functional_extensionality_dep"
],
"C109_elements": [
"ClassicalDedekindReals.sig_forall_dec",
"ClassicalDedekindReals.sig_not_dec",
"Classical_Prop.classic",
"FunctionalExtensionality.functional_extensionality_dep"
],
"C109_convergence": [
"ClassicalDedekindReals.sig_forall_dec",
"ClassicalDedekindReals.sig_not_dec",
"Classical_Prop.classic",
"FunctionalExtensionality.functional_extensionality_dep"
],
"C109_sign": [
"ClassicalDedekindReals.sig_forall_dec",
"FunctionalExtensionality.functional_extensionality_dep"
],
"C109_step": [
"ClassicalDedekindReals.sig_forall_dec",
"ClassicalDedekindReals.sig_not_dec",
"Classical_Prop.classic",
"FunctionalExtensionality.functional_extensionality_dep"
],
"C109_hydrogen": [
"ClassicalDedekindReals.sig_forall_dec",
"ClassicalDedekindReals.sig_not_dec",
"FunctionalExtensionality.functional_extensionality_dep"
],
"C109_near": [
"ClassicalDedekindReals.sig_forall_dec",
"ClassicalDedekindReals.sig_not_dec",
"Classical_Prop.classic",
"FunctionalExtensionality.functional_extensionality_dep"
],
"C109_far": [
"ClassicalDedekindReals.sig_forall_dec",
"ClassicalDedekindReals.sig_not_dec",
"Classical_Prop.classic",
"FunctionalExtensionality.functional_extensionality_dep"
],
"C109_multiplet": [
"ClassicalDedekindReals.sig_forall_dec",
"FunctionalExtensionality.functional_extensionality_dep"
],
"C109_spin": [
"ClassicalDedekindReals.sig_forall_dec",
"FunctionalExtensionality.functional_extensionality_dep"
],
"C109_fine_structure": [
"ClassicalDedekindReals.sig_forall_dec",
"ClassicalDedekindReals.sig_not_dec",
"FunctionalExtensionality.functional_extensionality_dep"
],
"C110_one_accepted": [],
"C110_two_accepted": [],
"C110_one_partial": [],
"C110_two_partial": [],
"C110_one_symmetries": [],
"C110_two_symmetries": [],
"C110_reflection": [],
"C110_reflection_checked": [],
"C110_either_order": [],
"C110_refused": [],
"C110_combined": [],
"C110_ion_refuted": [],
"C110_surface_refuted": [],
"C110_failed_refuted": [],
"C111_numbers_partial": [],
"C111_returned": [],
"C111_failed_add_refuted": [],
"C111_failed_unitarize_refuted": [],
"C112_never_hangs": [],
"C112_progress": [],
"C112_outcome": [],
"C112_released": [],
"C112_held": [],
"C112_200_seconds": [],
"C112_2000_seconds": [],
"C112_starvation_refuted": []
}