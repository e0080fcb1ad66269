# What Print Assumptions lists for each theorem of MANIFEST.json

Written by `tools/assumptions.py`. Every name is an axiom of the Coq standard library; the real-number ones are those on which
`Coq.Reals` itself is built.

## Closed under the global context (no axiom)

C01_iterate_visits_each_point_once, C02_overlap_box_is_intersection, C02_intersect_iff_common_point, C02_union_box_is_hull, C02_box_inside_is_overlap_box, C03_check_box_inside_iff, C03_check_box_inside_refuted, C03_check_box_inside_consequences, C04_point_inside_is_half_open, C04_cut_is_a_partition, C17_weight_order_is_element_order, C19_elements_enumerate_vertices, C19_elements_first_axis_fastest, C19_local_index_in_range_and_injective, C19_index_lists_follow_elements, C28_createMesh_layout, C28_createLaplacianMesh_layout, C28_sizes, C28_ranges_sum, C28_element_nodes_are_local, C29_elements_partitioned, C30_on_vec, C30_constrained_iff, C46_number_of_levels, C46_inexact_hierarchy_refuted, C49_exact_list, C49_long_list_is_undefined, C49_short_list, C50_own_storage, C50_component_overrun, C50_insert_after_scatter, C51_no_particle_refuted, C65_matrix_sizes, C82_constrained_iff, C83_surface_3d, C83_delaunay_2d, C83_delaunay_2d_refuted, C83_larger_facets

## `ClassicalDedekindReals.sig_forall_dec`

C30_on_rhs, C30_null_on_rhs, C39_singular_forces_one_particle, C39_singular_forces_two_particles_refuted, C46_rectangle_refuted, C46_cube_3d_refuted, C48_velocity, C48_velocity_square, C48_velocity_rectangle_refuted, C48_pressure_refuted, C48_pressure, C48_pressure_data_refuted, C50_accessor_reads_and_adds_at_its_node, C52_options, C61_force_2d_refuted, C64_particles_with_forces, C64_particles_2d, C64_particles_3d_refuted, C64_short_lists_refuted, C72_sides_turn, C86_hypotheses_are_met

## `ClassicalDedekindReals.sig_forall_dec`, `FunctionalExtensionality.functional_extensionality_dep`

C04_box_length_and_corners, C05_vector_plus_assign_velocity_refuted, C05_velocity_minus_vector_refuted, C05_componentwise, C05_unary_minus, C05_int_conversion_truncates, C05_ceil_floor, C06_cross_product_3d_laws, C06_cross_product_2d_is_planar_restriction, C07_linspace_closed, C07_linspace_half_open, C07_linspace_degenerate_refuted, C08_no_rotation_only_for_default, C10_index_box_covers_real_box, C14_fluid_points_found_exactly_once, C14_negative_lower_corner_refuted, C15_surface_points_kept_iff_cell_in_box, C15_offset_in_cell, C15_negative_coordinate_refuted, C16_counts_independent_of_partition, C16_fluid_points_independent_of_partition, C16_second_call_accumulates_refuted, C17_weights_are_tensor_shape_functions, C17_weights_2d, C17_weights_3d, C18_gradients_sum_to_zero, C23_laplacian_psd_kernel_constants, C23_strain_psd_kernel_rigid, C23_symmetric, C23_kernel_is_annihilated, C24_laplacian_linear, C24_mass_linear, C24_strain_linear, C24_laplacian_symmetric, C24_mass_symmetric, C24_strain_symmetric, C24_laplacian_positive, C24_mass_positive_definite, C24_strain_positive, C25_laplacian, C25_mass, C25_strain, C25_laplacian_is_assembled, C25_mass_is_assembled, C25_strain_is_assembled, C25_stokes, C26_laplacian, C26_mass, C26_stokes_laplacian, C26_stokes_strain_off_walls, C26_preconditioner, C26_diagonal_adds_nothing, C26_strain_wall_rows_refuted, C27_energy, C27_energy_laplacian, C27_blocks_are_adjoint, C31_stokes_laplacian, C31_laplacian, C31_stokes, C31_diagonal_laplacian, C31_diagonal_mass, C31_diagonal_with_bc_refuted, C32_dirichlet_rows, C32_constrained_strain, C32_constrained_laplacian, C32_single_process_band_refuted, C32_free_sides_refuted, C33_preallocation_covers_assembly, C34_velocity, C34_velocity_single_process, C34_pressure_refuted, C34_first_axis_finer_refuted, C34_second_axis_finer_refuted, C35_inner_zone_refuted, C35_no_cutoff_refuted, C37_divergence_2d, C37_no_slip_2d, C38_divergence_2d, C38_no_slip_2d, C39_forces_and_torques, C39_constant_field, C39_scaled_sub_grid_refuted, C40_force_and_torque_free_2d, C40_force_and_torque_free_3d, C40_rigid_density_removed_2d, C40_rigid_density_removed_3d, C40_unbalanced_refuted, C41_context_is_well_formed, C41_interpolation_is_Q1, C41_spreading_is_adjoint_of_interpolation, C41_total_force_is_conserved, C41_spreading_with_boundary_conditions, C42_rigid_motion_2d, C42_rigid_motion_3d, C42_rigid_motion_sign_refuted, C43_sem_superposition, C43_sem_linear, C43_dton_superposition, C43_dton_linear, C43_sem_history_independent, C43_dton_history_independent, C43_dton_singular_is_affine, C44_dton_last_solve, C44_sem_last_solve, C45_set_rhs_adds, C45_first_call, C45_idempotent_without_load, C45_second_call_adds_the_load_again, C45_idempotent_refuted, C46_square_2d, C46_hierarchy_square_2d, C47_pressure_mass_is_scaled_down, C48_pressure_spacing, C50_add_accumulates_each_entry_once, C51_points_kept, C51_weights, C52_defaults, C52_lengths, C52_periodic_refuted, C53_differences_antisymmetric, C55_constrained_laplacian_injective, C55_constrained_laplacian_unique_solution, C55_constrained_laplacian_has_a_solution, C55_constrained_strain_unique_solution, C55_constrained_strain_has_a_solution, C56_constant_pressure_in_kernel, C56_divergence_sums_to_zero, C58_sem_equation, C58_sem_restart_residual, C58_dton_equation, C58_dton_singular_residual, C60_weights, C61_overcount_3d, C63_pieces_show_the_solution, C63_parallel_files, C66_kernel, C66_unique, C66_solvable_iff_compatible, C66_homogeneous_walls_solvable, C66_single_cell_refuted, C67_divergence_is_flux, C67_setup_solvable_iff_no_net_flux, C67_impermeable_solvable, C67_lid_solvable_iff, C67_lid_refuted, C70_reciprocity, C70_reciprocity_of_loads, C70_work_is_dissipated, C70_least_dissipation, C70_minimisers_are_the_solutions, C71_preconditioner_spd, C71_preconditioner_invertible, C71_pressure_jacobi, C71_velocity_jacobi, C71_strain_declared_diagonal, C71_divergence_bound, C71_schur_bound, C71_schur_defined, C72_operator_turns, C72_flow_turns, C72_flow_is_the_image, C72_unit_of_length, C72_symmetric_flow, C72_exchange_refuted, C73_projection_is_the_mean, C73_independent_of_the_processes, C73_translation, C73_rigid_motion_2d, C73_rigid_motion_3d, C73_residue, C73_rigid_residue_2d, C73_rigid_residue_3d, C80_application_defined, C80_eigenvalue_one, C80_eigenvalue_zero, C80_spectrum_real_and_bounded, C82_on_vec, C85_half_the_steps, C86_half_the_steps, C87_solution_exists, C88_half_the_steps, C89_solution_exists

## `ClassicalDedekindReals.sig_forall_dec`, `ClassicalDedekindReals.sig_not_dec`, `FunctionalExtensionality.functional_extensionality_dep`

C08_unit_axis_quaternion_is_rodrigues_rotation, C08_rotation_preserves_scalar_products_and_conj_inverts, C08_planar_quaternion_is_planar_rotation, C08_non_unit_axis_refuted, C22_integral_is_unique, C36_frame_2d, C36_velocity_2d, C36_inverse_2d, C36_origin_2d, C36_cutoff_value, C36_frame_3d, C36_orthonormal_3d, C36_frame_axis_3d, C36_frame_3d_refuted, C36_projection_3d_refuted, C37_divergence_3d, C37_no_slip_3d, C38_divergence_3d, C38_no_slip_3d, C53_distance_is_a_metric_on_centres, C53_distance_is_euclidean, C54_circle_constants, C54_sphere_constants, C61_couples, C61_stress_3d, C61_sample_points_3d, C61_pressure_3d, C68_null_space_is_the_kernel, C68_periodic_refuted, C88_divergence_free

## `ClassicalDedekindReals.sig_forall_dec`, `Classical_Prop.classic`, `FunctionalExtensionality.functional_extensionality_dep`

C44_sem_last_solve_history_refuted, C59_control_layout

## `ClassicalDedekindReals.sig_forall_dec`, `ClassicalDedekindReals.sig_not_dec`, `Classical_Prop.classic`, `FunctionalExtensionality.functional_extensionality_dep`

C09_bounding_box_2d, C09_contains_2d_is_the_turned_super_ellipse, C09_bounding_box_3d_unrotated, C09_bounding_box_sphere_any_orientation, C09_bounding_box_3d_rotated_refuted, C09_bounding_box_2d_tilted_refuted, C10_grid_points_of_particle_in_index_box_2d, C10_grid_points_of_particle_in_index_box_3d, C11_sample_on_curve_symmetric_distinct, C11_circle_sample_is_equally_spaced, C12_sampling_terminates, C12_zero_step_never_terminates, C13_surface_2d_on_boundary, C13_surface_2d_terminates, C13_sampled_points_on_boundary, C13_sampled_points_on_boundary_3d, C13_radial_vectors_are_points_minus_centre, C13_sampled_points_follow_parameters, C13_sampled_points_follow_parameters_3d, C13_sampled_points_rotated_refuted, C13_surface_3d_refuted, C18_gradient_2d, C18_gradient_3d, C20_laplacian_2d, C20_mass_2d, C20_strain_2d, C21_laplacian_3d, C21_mass_3d, C21_strain_3d, C22_pressure_2d, C22_pressure_3d, C35_alpha_derivatives, C35_d4alpha_refuted, C35_alpha_step, C35_derivatives, C35_cutoff, C36_cutoff, C36_support_2d, C36_support_3d, C36_contact_velocity_2d, C36_trace_2d, C36_gradient_3d, C36_gradient_2d, C36_contact_velocity_3d, C36_sense_3d_refuted, C37_gradient_gap_2d, C37_contact_2d, C37_gradient_axis_2d, C37_gradient_axis_dz_2d, C37_gradient_2d_refuted, C37_gradient_still_cutoff_2d, C37_gradient_dz_2d_refuted, C37_gradient_3d, C37_axis_3d_refuted, C38_gradient_2d, C38_penetration_2d_refuted, C38_gradient_3d, C38_curvatures_3d_refuted, C38_axis_3d_refuted, C40_circles_are_force_and_torque_free, C40_rigid_fluid_gives_its_velocity, C43_dton_singular_refuted, C44_sem_last_solve_refuted, C51_weak_form, C51_decomposition, C51_no_total_force, C51_single_particle, C54_circle_is_the_disc, C54_circle_particle, C54_sphere_is_the_ball, C57_lubrication_normal_3d, C57_lubrication_tang_2d, C57_lubrication_tang_3d, C57_normal_2d_refuted, C58_dton_singular_refuted, C58_sem_restart_refuted, C60_added, C60_several_processes_refuted, C61_forces_2d_refuted, C61_force_3d_refuted, C61_forces_3d, C62_box_covers_gap_2d, C62_box_covers_gap_3d, C69_nodal_values_solve, C69_solution_is_exact, C69_hydrostatic, C69_affine_flow, C69_channel_flow, C69_own_axis_refuted, C73_rotation_refuted, C74_fluid_points_in_doubles, C74_coordinate_error, C74_right_away_from_the_surface, C74_exact_steps, C74_exact_steps_any_process, C74_bounding_box, C74_depends_on_the_partition_refuted, C75_cell_of_a_point, C75_surface_points_in_doubles, C75_negative_offset_refuted, C76_weights_in_doubles, C76_weights_sum, C76_surface_point_weights_sum, C76_weights_in_doubles_3d, C76_surface_point_weights_sum_3d, C77_linspace_in_doubles, C77_last_sample_refuted, C77_mesh_steps, C77_even_nodes_coincide, C78_counts_independent_of_partition, C78_number_of_subgrid_points, C78_subgrid_point_error, C78_fluid_points_depend_on_partition_refuted, C79_ring_sample, C79_ring_terminates, C79_surface_3d_sample, C79_sphere_rings, C79_exchanged_exponents_refuted, C79_points_repeated_refuted, C81_laplacian_in_doubles, C81_mass_in_doubles, C81_strain_in_doubles, C81_any_element_matrix, C81_two_partitions, C81_stokes_in_doubles, C81_stokes_laplacian_in_doubles, C81_diagonals_in_doubles, C81_depends_on_the_partition_refuted, C82_on_rhs, C82_null_on_rhs, C82_coordinates, C82_laplacian_in_doubles, C82_strain_in_doubles, C82_stokes_in_doubles, C82_rhs_in_doubles, C82_rhs_without_load, C84_interpolation_in_doubles, C84_interpolation_of_all_points, C84_same_bits_on_any_partition, C84_between_the_corner_values, C84_spreading_in_doubles, C84_power_of_the_spread_forces, C84_total_force, C84_spreading_with_boundary_conditions, C84_weight_of_a_surface_point, C85_surface_points, C85_in_doubles, C85_bound_is_reached, C85_refined_grid, C85_power_of_the_spread_forces, C86_laplacian, C86_mass, C86_stokes, C86_discrete_equations, C86_bounds_are_reached, C87_error, C87_energy, C87_second_order, C88_strain, C88_stokes, C88_discrete_equations, C89_error, C89_energy, C89_error_periodic_2d, C89_second_order
