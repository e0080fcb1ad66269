{
 "claims": [
  {
   "property": "C01",
   "status": "proved",
   "theorems": [
    "C01_iterate_visits_each_point_once"
   ],
   "note": "any dimension, any box, any callback"
  },
  {
   "property": "C02",
   "status": "proved",
   "theorems": [
    "C02_overlap_box_is_intersection",
    "C02_intersect_iff_common_point",
    "C02_union_box_is_hull",
    "C02_box_inside_is_overlap_box"
   ],
   "note": "generic in the coordinate type; Z and R instances given"
  },
  {
   "property": "C03",
   "status": "proved",
   "theorems": [
    "C03_check_box_inside_iff",
    "C03_check_box_inside_refuted",
    "C03_check_box_inside_consequences"
   ],
   "note": "exact characterisation; the documented contract is refuted in both directions"
  },
  {
   "property": "C04",
   "status": "proved",
   "theorems": [
    "C04_point_inside_is_half_open",
    "C04_cut_is_a_partition",
    "C04_box_length_and_corners"
   ],
   "note": ""
  },
  {
   "property": "C05",
   "status": "proved",
   "theorems": [
    "C05_vector_plus_assign_velocity_refuted",
    "C05_velocity_minus_vector_refuted",
    "C05_componentwise",
    "C05_unary_minus",
    "C05_int_conversion_truncates",
    "C05_ceil_floor"
   ],
   "note": "false for vector+=velocity and velocity-vector (refuted for every operand); all other operators proved"
  },
  {
   "property": "C06",
   "status": "proved",
   "theorems": [
    "C06_cross_product_3d_laws",
    "C06_cross_product_2d_is_planar_restriction"
   ],
   "note": ""
  },
  {
   "property": "C07",
   "status": "proved",
   "theorems": [
    "C07_linspace_closed",
    "C07_linspace_half_open",
    "C07_linspace_degenerate_refuted"
   ],
   "note": "num>=2 closed, num>=1 half-open; the degenerate counts are characterised (num=1 closed gives a non-finite value)"
  },
  {
   "property": "C08",
   "status": "proved",
   "theorems": [
    "C08_unit_axis_quaternion_is_rodrigues_rotation",
    "C08_rotation_preserves_scalar_products_and_conj_inverts",
    "C08_planar_quaternion_is_planar_rotation",
    "C08_no_rotation_only_for_default",
    "C08_non_unit_axis_refuted"
   ],
   "note": "proved for unit axes as stated; a non-unit axis is not a rotation (refutation included)"
  },
  {
   "property": "C09",
   "status": "proved",
   "theorems": [
    "C09_bounding_box_2d",
    "C09_contains_2d_is_the_turned_super_ellipse",
    "C09_bounding_box_3d_unrotated",
    "C09_bounding_box_sphere_any_orientation",
    "C09_bounding_box_3d_rotated_refuted",
    "C09_bounding_box_2d_tilted_refuted"
   ],
   "note": "true in 2D for any angle, in 3D unrotated, for spheres always; false for rotated 3D super-ellipsoids and 2D shapes with an out-of-plane quaternion"
  },
  {
   "property": "C10",
   "status": "proved",
   "theorems": [
    "C10_grid_points_of_particle_in_index_box_2d",
    "C10_grid_points_of_particle_in_index_box_3d",
    "C10_index_box_covers_real_box"
   ],
   "note": ""
  },
  {
   "property": "C11",
   "status": "proved",
   "theorems": [
    "C11_sample_on_curve_symmetric_distinct",
    "C11_circle_sample_is_equally_spaced"
   ],
   "note": ""
  },
  {
   "property": "C12",
   "status": "proved",
   "theorems": [
    "C12_sampling_terminates",
    "C12_zero_step_never_terminates"
   ],
   "note": ""
  },
  {
   "property": "C13",
   "status": "proved",
   "theorems": [
    "C13_surface_2d_on_boundary",
    "C13_surface_2d_terminates",
    "C13_sampled_points_on_boundary",
    "C13_sampled_points_on_boundary_3d",
    "C13_radial_vectors_are_points_minus_centre",
    "C13_sampled_points_follow_parameters",
    "C13_sampled_points_follow_parameters_3d",
    "C13_sampled_points_rotated_refuted",
    "C13_surface_3d_refuted"
   ],
   "note": "true for 2D surface(k) with any angle; false for at(u) of rotated shapes and for 3D surface(k) (undefined behaviour)"
  },
  {
   "property": "C14",
   "status": "proved",
   "theorems": [
    "C14_fluid_points_found_exactly_once",
    "C14_negative_lower_corner_refuted"
   ],
   "note": "proved for boxes with non-negative corners (the only ones set_materials builds from process boxes); a negative lower corner provably yields the empty list"
  },
  {
   "property": "C15",
   "status": "proved",
   "theorems": [
    "C15_surface_points_kept_iff_cell_in_box",
    "C15_offset_in_cell",
    "C15_negative_coordinate_refuted"
   ],
   "note": "offset in [0,h) for non-negative coordinates; below the domain truncation gives a negative offset (refutation)"
  },
  {
   "property": "C16",
   "status": "proved",
   "theorems": [
    "C16_counts_independent_of_partition",
    "C16_fluid_points_independent_of_partition",
    "C16_second_call_accumulates_refuted"
   ],
   "note": "for one call on fresh arrays; a second call on the same arrays accumulates num"
  },
  {
   "property": "C17",
   "status": "proved",
   "theorems": [
    "C17_weights_are_tensor_shape_functions",
    "C17_weights_2d",
    "C17_weights_3d",
    "C17_weight_order_is_element_order"
   ],
   "note": ""
  },
  {
   "property": "C18",
   "status": "proved",
   "theorems": [
    "C18_gradient_2d",
    "C18_gradient_3d",
    "C18_gradients_sum_to_zero"
   ],
   "note": "the code returns the gradient times the cell volume"
  },
  {
   "property": "C19",
   "status": "proved",
   "theorems": [
    "C19_elements_enumerate_vertices",
    "C19_elements_first_axis_fastest",
    "C19_local_index_in_range_and_injective",
    "C19_index_lists_follow_elements"
   ],
   "note": ""
  },
  {
   "property": "C20",
   "status": "proved",
   "theorems": [
    "C20_laplacian_2d",
    "C20_mass_2d",
    "C20_strain_2d"
   ],
   "note": ""
  },
  {
   "property": "C21",
   "status": "proved",
   "theorems": [
    "C21_laplacian_3d",
    "C21_mass_3d",
    "C21_strain_3d"
   ],
   "note": ""
  },
  {
   "property": "C22",
   "status": "proved",
   "theorems": [
    "C22_pressure_2d",
    "C22_pressure_3d",
    "C22_integral_is_unique"
   ],
   "note": ""
  },
  {
   "property": "C23",
   "status": "proved",
   "theorems": [
    "C23_laplacian_psd_kernel_constants",
    "C23_strain_psd_kernel_rigid",
    "C23_symmetric",
    "C23_kernel_is_annihilated"
   ],
   "note": "kernel shown to be exactly the constants / rigid motions, in 2D and 3D"
  },
  {
   "property": "C24",
   "status": "proved",
   "theorems": [
    "C24_laplacian_linear",
    "C24_mass_linear",
    "C24_strain_linear",
    "C24_laplacian_symmetric",
    "C24_mass_symmetric",
    "C24_strain_symmetric",
    "C24_laplacian_positive",
    "C24_mass_positive_definite",
    "C24_strain_positive"
   ],
   "note": "2D and 3D, any decomposition; kernel of the Laplacian shown to be the constants"
  },
  {
   "property": "C25",
   "status": "proved",
   "theorems": [
    "C25_laplacian",
    "C25_mass",
    "C25_strain",
    "C25_laplacian_is_assembled",
    "C25_mass_is_assembled",
    "C25_strain_is_assembled",
    "C25_stokes"
   ],
   "note": "any two layouts of the same grid give the same field; the field is the textbook sum over elements"
  },
  {
   "property": "C26",
   "status": "proved",
   "theorems": [
    "C26_laplacian",
    "C26_mass",
    "C26_stokes_laplacian",
    "C26_stokes_strain_off_walls",
    "C26_preconditioner",
    "C26_diagonal_adds_nothing",
    "C26_strain_wall_rows_refuted"
   ],
   "note": "2D (the assembly code exists in 2D only)"
  },
  {
   "property": "C27",
   "status": "proved",
   "theorems": [
    "C27_energy",
    "C27_energy_laplacian",
    "C27_blocks_are_adjoint"
   ],
   "note": ""
  },
  {
   "property": "C28",
   "status": "proved",
   "theorems": [
    "C28_createMesh_layout",
    "C28_createLaplacianMesh_layout",
    "C28_sizes",
    "C28_ranges_sum",
    "C28_element_nodes_are_local"
   ],
   "note": ""
  },
  {
   "property": "C29",
   "status": "proved",
   "theorems": [
    "C29_elements_partitioned"
   ],
   "note": ""
  },
  {
   "property": "C30",
   "status": "proved",
   "theorems": [
    "C30_on_vec",
    "C30_on_rhs",
    "C30_null_on_rhs",
    "C30_constrained_iff"
   ],
   "note": ""
  },
  {
   "property": "C31",
   "status": "proved",
   "theorems": [
    "C31_stokes_laplacian",
    "C31_laplacian",
    "C31_stokes",
    "C31_diagonal_laplacian",
    "C31_diagonal_mass",
    "C31_diagonal_with_bc_refuted"
   ],
   "note": "the refutation shows the preconditioner's diagonal ignores Dirichlet rows, as the statement says"
  },
  {
   "property": "C32",
   "status": "proved",
   "theorems": [
    "C32_dirichlet_rows",
    "C32_constrained_strain",
    "C32_constrained_laplacian",
    "C32_single_process_band_refuted",
    "C32_free_sides_refuted"
   ],
   "note": "the two exceptions named in the statement are proved as such"
  },
  {
   "property": "C33",
   "status": "proved",
   "theorems": [
    "C33_preallocation_covers_assembly"
   ],
   "note": "2D; the 3D branch of PreallocateMat is the same code with one more axis and is not modelled"
  },
  {
   "property": "C34",
   "status": "proved",
   "theorems": [
    "C34_velocity",
    "C34_velocity_single_process",
    "C34_pressure_refuted",
    "C34_first_axis_finer_refuted",
    "C34_second_axis_finer_refuted"
   ],
   "note": "2D, the dimension the kernel is written for. The refined grid made by DMRefine is a parameter: with several processes the refined nodes of a process are assumed to be in its ghosted refined box."
  },
  {
   "property": "C35",
   "status": "proved",
   "theorems": [
    "C35_alpha_derivatives",
    "C35_d4alpha_refuted",
    "C35_alpha_step",
    "C35_derivatives",
    "C35_cutoff",
    "C35_inner_zone_refuted",
    "C35_no_cutoff_refuted"
   ],
   "note": ""
  },
  {
   "property": "C36",
   "status": "proved",
   "theorems": [
    "C36_frame_2d",
    "C36_velocity_2d",
    "C36_inverse_2d",
    "C36_origin_2d",
    "C36_cutoff",
    "C36_cutoff_value",
    "C36_support_2d",
    "C36_support_3d",
    "C36_contact_velocity_2d",
    "C36_trace_2d",
    "C36_gradient_3d",
    "C36_gradient_2d",
    "C36_frame_3d",
    "C36_orthonormal_3d",
    "C36_contact_velocity_3d",
    "C36_frame_axis_3d",
    "C36_frame_3d_refuted",
    "C36_projection_3d_refuted",
    "C36_sense_3d_refuted"
   ],
   "note": "the 3D defects are proved as such; get_box is in C62"
  },
  {
   "property": "C37",
   "status": "proved",
   "theorems": [
    "C37_gradient_gap_2d",
    "C37_divergence_2d",
    "C37_no_slip_2d",
    "C37_contact_2d",
    "C37_gradient_axis_2d",
    "C37_gradient_axis_dz_2d",
    "C37_gradient_2d_refuted",
    "C37_gradient_still_cutoff_2d",
    "C37_gradient_dz_2d_refuted",
    "C37_gradient_3d",
    "C37_divergence_3d",
    "C37_no_slip_3d",
    "C37_axis_3d_refuted"
   ],
   "note": "the exceptions named in the statement are proved as such"
  },
  {
   "property": "C38",
   "status": "proved",
   "theorems": [
    "C38_gradient_2d",
    "C38_divergence_2d",
    "C38_no_slip_2d",
    "C38_penetration_2d_refuted",
    "C38_gradient_3d",
    "C38_divergence_3d",
    "C38_no_slip_3d",
    "C38_curvatures_3d_refuted",
    "C38_axis_3d_refuted"
   ],
   "note": ""
  },
  {
   "property": "C39",
   "status": "proved",
   "theorems": [
    "C39_forces_and_torques",
    "C39_constant_field",
    "C39_scaled_sub_grid_refuted",
    "C39_singular_forces_one_particle",
    "C39_singular_forces_two_particles_refuted"
   ],
   "note": ""
  },
  {
   "property": "C40",
   "status": "proved",
   "theorems": [
    "C40_force_and_torque_free_2d",
    "C40_force_and_torque_free_3d",
    "C40_circles_are_force_and_torque_free",
    "C40_rigid_density_removed_2d",
    "C40_rigid_density_removed_3d",
    "C40_rigid_fluid_gives_its_velocity",
    "C40_unbalanced_refuted"
   ],
   "note": "3D spheres: surface(k) never terminates normally (C13), so only the balanced hypothesis is used in 3D; get_new_velocities in 2D without periodicity"
  },
  {
   "property": "C41",
   "status": "proved",
   "theorems": [
    "C41_context_is_well_formed",
    "C41_interpolation_is_Q1",
    "C41_spreading_is_adjoint_of_interpolation",
    "C41_total_force_is_conserved",
    "C41_spreading_with_boundary_conditions"
   ],
   "note": ""
  },
  {
   "property": "C42",
   "status": "proved",
   "theorems": [
    "C42_rigid_motion_2d",
    "C42_rigid_motion_3d",
    "C42_rigid_motion_sign_refuted"
   ],
   "note": ""
  },
  {
   "property": "C43",
   "status": "proved",
   "theorems": [
    "C43_sem_superposition",
    "C43_sem_linear",
    "C43_dton_superposition",
    "C43_dton_linear",
    "C43_sem_history_independent",
    "C43_dton_history_independent",
    "C43_dton_singular_is_affine",
    "C43_dton_singular_refuted"
   ],
   "note": "The Stokes solver is a parameter assumed linear (exact); NtoD does not compile and is not modelled."
  },
  {
   "property": "C44",
   "status": "proved",
   "theorems": [
    "C44_dton_last_solve",
    "C44_sem_last_solve",
    "C44_sem_last_solve_history_refuted",
    "C44_sem_last_solve_refuted"
   ],
   "note": ""
  },
  {
   "property": "C45",
   "status": "proved",
   "theorems": [
    "C45_set_rhs_adds",
    "C45_first_call",
    "C45_idempotent_without_load",
    "C45_second_call_adds_the_load_again",
    "C45_idempotent_refuted"
   ],
   "note": "idempotence with a load is false of the code (refuted); the exact effect of every call is proved"
  },
  {
   "property": "C46",
   "status": "proved",
   "theorems": [
    "C46_square_2d",
    "C46_number_of_levels",
    "C46_hierarchy_square_2d",
    "C46_inexact_hierarchy_refuted",
    "C46_rectangle_refuted",
    "C46_cube_3d_refuted"
   ],
   "note": "PETSc's DMCoarsen and DMRefine are modelled from their documentation; the truncated double square root is the integer square root"
  },
  {
   "property": "C47",
   "status": "proved",
   "theorems": [
    "C47_pressure_mass_is_scaled_down"
   ],
   "note": ""
  },
  {
   "property": "C48",
   "status": "proved",
   "theorems": [
    "C48_velocity",
    "C48_velocity_square",
    "C48_velocity_rectangle_refuted",
    "C48_pressure_refuted",
    "C48_pressure",
    "C48_pressure_data_refuted",
    "C48_pressure_spacing"
   ],
   "note": "HDF5 array sizes and XDMF reading order modelled from documentation"
  },
  {
   "property": "C49",
   "status": "proved",
   "theorems": [
    "C49_exact_list",
    "C49_long_list_is_undefined",
    "C49_short_list"
   ],
   "note": ""
  },
  {
   "property": "C50",
   "status": "proved",
   "theorems": [
    "C50_own_storage",
    "C50_accessor_reads_and_adds_at_its_node",
    "C50_component_overrun",
    "C50_add_accumulates_each_entry_once",
    "C50_insert_after_scatter"
   ],
   "note": "The array layout (PETSc row tables) is modelled in M_Vec; PETSc's transfers are modelled from their documentation."
  },
  {
   "property": "C51",
   "status": "proved",
   "theorems": [
    "C51_points_kept",
    "C51_weights",
    "C51_weak_form",
    "C51_decomposition",
    "C51_no_total_force",
    "C51_no_particle_refuted",
    "C51_single_particle"
   ],
   "note": "computesingularBC and add_singularity_to_surf are not modelled: their calls are commented out"
  },
  {
   "property": "C52",
   "status": "proved",
   "theorems": [
    "C52_defaults",
    "C52_options",
    "C52_lengths",
    "C52_periodic_refuted"
   ],
   "note": ""
  },
  {
   "property": "C53",
   "status": "proved",
   "theorems": [
    "C53_distance_is_a_metric_on_centres",
    "C53_differences_antisymmetric",
    "C53_distance_is_euclidean"
   ],
   "note": ""
  },
  {
   "property": "C54",
   "status": "proved",
   "theorems": [
    "C54_circle_constants",
    "C54_circle_is_the_disc",
    "C54_circle_particle",
    "C54_sphere_is_the_ball",
    "C54_sphere_constants"
   ],
   "note": ""
  },
  {
   "property": "C55",
   "status": "proved",
   "theorems": [
    "C55_constrained_laplacian_injective",
    "C55_constrained_laplacian_unique_solution",
    "C55_constrained_laplacian_has_a_solution",
    "C55_constrained_strain_unique_solution",
    "C55_constrained_strain_has_a_solution"
   ],
   "note": ""
  },
  {
   "property": "C56",
   "status": "proved",
   "theorems": [
    "C56_constant_pressure_in_kernel",
    "C56_divergence_sums_to_zero"
   ],
   "note": "2D and 3D"
  },
  {
   "property": "C57",
   "status": "proved",
   "theorems": [
    "C57_lubrication_normal_3d",
    "C57_lubrication_tang_2d",
    "C57_lubrication_tang_3d",
    "C57_normal_2d_refuted"
   ],
   "note": ""
  },
  {
   "property": "C58",
   "status": "proved",
   "theorems": [
    "C58_sem_equation",
    "C58_sem_restart_residual",
    "C58_dton_equation",
    "C58_dton_singular_residual",
    "C58_dton_singular_refuted",
    "C58_sem_restart_refuted"
   ],
   "note": ""
  },
  {
   "property": "C59",
   "status": "proved",
   "theorems": [
    "C59_control_layout"
   ],
   "note": ""
  },
  {
   "property": "C60",
   "status": "proved",
   "theorems": [
    "C60_added",
    "C60_weights",
    "C60_several_processes_refuted"
   ],
   "note": ""
  },
  {
   "property": "C61",
   "status": "proved",
   "theorems": [
    "C61_couples",
    "C61_force_2d_refuted",
    "C61_forces_2d_refuted",
    "C61_stress_3d",
    "C61_sample_points_3d",
    "C61_pressure_3d",
    "C61_force_3d_refuted",
    "C61_forces_3d",
    "C61_overcount_3d"
   ],
   "note": ""
  },
  {
   "property": "C62",
   "status": "proved",
   "theorems": [
    "C62_box_covers_gap_2d",
    "C62_box_covers_gap_3d"
   ],
   "note": "asin of more than 1 (cut-off beyond the radius) is not modelled"
  },
  {
   "property": "C63",
   "status": "proved",
   "theorems": [
    "C63_pieces_show_the_solution",
    "C63_parallel_files"
   ],
   "note": "VTK objects are modelled by what is inserted in them; XML syntax and array names are not modelled"
  },
  {
   "property": "C64",
   "status": "proved",
   "theorems": [
    "C64_particles_with_forces",
    "C64_particles_2d",
    "C64_particles_3d_refuted",
    "C64_short_lists_refuted"
   ],
   "note": ""
  },
  {
   "property": "C65",
   "status": "proved",
   "theorems": [
    "C65_matrix_sizes"
   ],
   "note": "sizes are mathematical integers: overflow of int is not modelled"
  },
  {
   "property": "C66",
   "status": "proved",
   "theorems": [
    "C66_kernel",
    "C66_unique",
    "C66_solvable_iff_compatible",
    "C66_homogeneous_walls_solvable",
    "C66_single_cell_refuted"
   ],
   "note": "2D and 3D; the exception named in the statement is proved as such"
  },
  {
   "property": "C67",
   "status": "proved",
   "theorems": [
    "C67_divergence_is_flux",
    "C67_setup_solvable_iff_no_net_flux",
    "C67_impermeable_solvable",
    "C67_lid_solvable_iff",
    "C67_lid_refuted"
   ],
   "note": "the lid theorems are 2D"
  },
  {
   "property": "C68",
   "status": "proved",
   "theorems": [
    "C68_null_space_is_the_kernel",
    "C68_periodic_refuted"
   ],
   "note": "2D only, like the assembled matrices; what KSP does with the declared null space is not modelled"
  },
  {
   "property": "C69",
   "status": "proved",
   "theorems": [
    "C69_nodal_values_solve",
    "C69_solution_is_exact",
    "C69_hydrostatic",
    "C69_affine_flow",
    "C69_channel_flow",
    "C69_own_axis_refuted"
   ],
   "note": "exact real arithmetic; for the system the driver sets up, whatever solver returns a solution of it"
  },
  {
   "property": "C70",
   "status": "proved",
   "theorems": [
    "C70_reciprocity",
    "C70_reciprocity_of_loads",
    "C70_work_is_dissipated",
    "C70_least_dissipation",
    "C70_minimisers_are_the_solutions"
   ],
   "note": "exact real arithmetic; for any solution of the system, whatever solver returns it"
  },
  {
   "property": "C71",
   "status": "proved",
   "theorems": [
    "C71_preconditioner_spd",
    "C71_preconditioner_invertible",
    "C71_pressure_jacobi",
    "C71_velocity_jacobi",
    "C71_strain_declared_diagonal",
    "C71_divergence_bound",
    "C71_schur_bound",
    "C71_schur_defined"
   ],
   "note": "exact real arithmetic; what the Krylov method does with the preconditioner is not modelled"
  },
  {
   "property": "C72",
   "status": "proved",
   "theorems": [
    "C72_operator_turns",
    "C72_flow_turns",
    "C72_flow_is_the_image",
    "C72_sides_turn",
    "C72_unit_of_length",
    "C72_symmetric_flow",
    "C72_exchange_refuted"
   ],
   "note": "exact real arithmetic; the exchange of two axes is proved when the conditions of meeting sides agree and refuted otherwise (the last side wins at a corner)"
  },
  {
   "property": "C73",
   "status": "proved",
   "theorems": [
    "C73_projection_is_the_mean",
    "C73_independent_of_the_processes",
    "C73_translation",
    "C73_rigid_motion_2d",
    "C73_rigid_motion_3d",
    "C73_residue",
    "C73_rigid_residue_2d",
    "C73_rigid_residue_3d",
    "C73_rotation_refuted"
   ],
   "note": "exact real arithmetic; a particle with no sub-grid point inside (division by zero in the C++) is excluded by L <> []; rigid motions on grids without periodic axes"
  },
  {
   "property": "C74",
   "status": "proved",
   "theorems": [
    "C74_fluid_points_in_doubles",
    "C74_coordinate_error",
    "C74_right_away_from_the_surface",
    "C74_exact_steps",
    "C74_exact_steps_any_process",
    "C74_bounding_box",
    "C74_depends_on_the_partition_refuted"
   ],
   "note": "IEEE binary64, one rounding per operation, no fused operations; the bounding box is that of a 2D shape that is not rotated; std::pow is a parameter (the refutation holds for every pow that squares 0 and 1 exactly and squares 1-2^-52 to less than 1)"
  },
  {
   "property": "C75",
   "status": "proved",
   "theorems": [
    "C75_cell_of_a_point",
    "C75_surface_points_in_doubles",
    "C75_negative_offset_refuted"
   ],
   "note": "IEEE binary64; nonnegative coordinates up to 2^30 steps (C15 treats negative ones)"
  },
  {
   "property": "C76",
   "status": "proved",
   "theorems": [
    "C76_weights_in_doubles",
    "C76_weights_sum",
    "C76_surface_point_weights_sum",
    "C76_weights_in_doubles_3d",
    "C76_surface_point_weights_sum_3d"
   ],
   "note": "IEEE binary64; steps between 2^-100 and 2^100"
  },
  {
   "property": "C77",
   "status": "proved",
   "theorems": [
    "C77_linspace_in_doubles",
    "C77_last_sample_refuted",
    "C77_mesh_steps",
    "C77_even_nodes_coincide"
   ],
   "note": "IEEE binary64"
  },
  {
   "property": "C78",
   "status": "proved",
   "theorems": [
    "C78_counts_independent_of_partition",
    "C78_number_of_subgrid_points",
    "C78_subgrid_point_error",
    "C78_fluid_points_depend_on_partition_refuted"
   ],
   "note": "IEEE binary64, one rounding per operation; membership test and bounding box of a particle are parameters (the refutation uses the disc of C74 and any std::pow that squares with one rounding); the counters are mathematical integers"
  },
  {
   "property": "C79",
   "status": "proved",
   "theorems": [
    "C79_ring_sample",
    "C79_ring_terminates",
    "C79_surface_3d_sample",
    "C79_sphere_rings",
    "C79_exchanged_exponents_refuted",
    "C79_points_repeated_refuted"
   ],
   "note": "real arithmetic; for the runs in which the vector of points has room for the mirrored half (otherwise undefined, C13); the natural property (points on the particle's own surface, no point twice) is false for n <> e and for every shape respectively"
  },
  {
   "property": "C80",
   "status": "proved",
   "theorems": [
    "C80_application_defined",
    "C80_eigenvalue_one",
    "C80_eigenvalue_zero",
    "C80_spectrum_real_and_bounded"
   ],
   "note": "the velocity sub-solver is taken to be exact (in the code: GCR on multigrid, tolerance 1e-2); PETSc's field split with the upper Schur factorisation is read from its documentation"
  },
  {
   "property": "C81",
   "status": "proved",
   "theorems": [
    "C81_laplacian_in_doubles",
    "C81_mass_in_doubles",
    "C81_strain_in_doubles",
    "C81_any_element_matrix",
    "C81_two_partitions",
    "C81_stokes_in_doubles",
    "C81_stokes_laplacian_in_doubles",
    "C81_diagonals_in_doubles",
    "C81_depends_on_the_partition_refuted"
   ],
   "note": "before the boundary conditions are imposed; no fused multiply-add; the absolute run of the Stokes operator takes minus the absolute value of the pressure, so that its subtractions add up"
  },
  {
   "property": "C82",
   "status": "proved",
   "theorems": [
    "C82_on_vec",
    "C82_on_rhs",
    "C82_null_on_rhs",
    "C82_coordinates",
    "C82_constrained_iff",
    "C82_laplacian_in_doubles",
    "C82_strain_in_doubles",
    "C82_stokes_in_doubles",
    "C82_rhs_in_doubles",
    "C82_rhs_without_load"
   ],
   "note": "the boundary and load functions are any functions from the array of coordinates to a double; no fused multiply-add"
  },
  {
   "property": "C83",
   "status": "proved",
   "theorems": [
    "C83_surface_3d",
    "C83_delaunay_2d",
    "C83_delaunay_2d_refuted",
    "C83_larger_facets"
   ],
   "note": "Qhull is a parameter (any list of facets); the natural 2D property (every triangle returned is a facet of the triangulation) is false and stated as such"
  },
  {
   "property": "C84",
   "status": "proved",
   "theorems": [
    "C84_interpolation_in_doubles",
    "C84_interpolation_of_all_points",
    "C84_same_bits_on_any_partition",
    "C84_between_the_corner_values",
    "C84_spreading_in_doubles",
    "C84_power_of_the_spread_forces",
    "C84_total_force",
    "C84_spreading_with_boundary_conditions",
    "C84_weight_of_a_surface_point"
   ],
   "note": "without the rigid motion of the particles; the particles' surfaces are parameters; no fused multiply-add"
  },
  {
   "property": "C85",
   "status": "proved",
   "theorems": [
    "C85_surface_points",
    "C85_in_doubles",
    "C85_half_the_steps",
    "C85_bound_is_reached",
    "C85_refined_grid",
    "C85_power_of_the_spread_forces"
   ],
   "note": "fields with a second derivative along every axis in the closed cells (no continuity of it is needed); surface points with no negative coordinate, the others being truncated to the wrong cell (C15)"
  },
  {
   "property": "C86",
   "status": "proved",
   "theorems": [
    "C86_laplacian",
    "C86_mass",
    "C86_stokes",
    "C86_discrete_equations",
    "C86_half_the_steps",
    "C86_bounds_are_reached",
    "C86_hypotheses_are_met"
   ],
   "note": "consistency (truncation error) of the scheme at interior nodes, for the Laplacian form of the viscous operator; for the Laplace system the convergence itself is C87; for the Stokes system the stability estimate that is uniform in the steps (inf-sup condition) is not proved"
  },
  {
   "property": "C87",
   "status": "proved",
   "theorems": [
    "C87_error",
    "C87_energy",
    "C87_solution_exists",
    "C87_second_order"
   ],
   "note": "the constrained (vector) Laplace system with conditions for every component on every wall, at least one axis with walls; exact solution of the linear system; the stability constants 12 and 72 are not sharp"
  },
  {
   "property": "C88",
   "status": "proved",
   "theorems": [
    "C88_strain",
    "C88_stokes",
    "C88_discrete_equations",
    "C88_half_the_steps",
    "C88_divergence_free"
   ],
   "note": "consistency at interior nodes for the strain-tensor form of the viscous operator; the constant 1/2 of the crossed differences is not sharp"
  },
  {
   "property": "C89",
   "status": "proved",
   "theorems": [
    "C89_error",
    "C89_energy",
    "C89_error_periodic_2d",
    "C89_solution_exists",
    "C89_second_order"
   ],
   "note": "the viscous block alone, written with the strain tensor, conditions for every component on every wall; in 3D the error bound is for a box without periodic axes, in 2D one axis with walls is enough; exact solution of the linear system; the stability constants 6 and 36 are not sharp; the convergence of the pair velocity and pressure is not claimed (it needs an inf-sup bound uniform in the steps)"
  }
 ]
}