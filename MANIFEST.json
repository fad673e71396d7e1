{
 "claims": [
  {
   "property": "C01",
   "status": "proved",
   "theorems": [
    "C01_step_bounds"
   ],
   "note": "Exact-real model of get_timestep and the cycle loop, arbitrary environment."
  },
  {
   "property": "C02",
   "status": "proved",
   "theorems": [
    "C02_progress",
    "C02_ends",
    "C02_reaches_final_time"
   ],
   "note": "Requires positive dt_start, dt_min, dt_max, tiny and t_start < t_final. Real arithmetic: floating-point stagnation is not modelled."
  },
  {
   "property": "C03",
   "status": "proved",
   "theorems": [
    "C03_cfl",
    "C03_eroded_does_not_restrict"
   ],
   "note": ""
  },
  {
   "property": "C04",
   "status": "proved",
   "theorems": [
    "C04_pairs",
    "C04_size_is_min_distance"
   ],
   "note": ""
  },
  {
   "property": "C05",
   "status": "partial",
   "theorems": [
    "C05_outputs",
    "C05_schedule",
    "C05_defined",
    "C05_cycle_limit_written_refuted",
    "C05_late_start_interval_refuted",
    "C05_crawl_when_behind",
    "C05_many_outputs_refuted"
   ],
   "note": "All clauses proved except the last one, which is false of the code: the state reached on the cycle limit is not written (refuted with a witness). Also refuted: interval kept by a solver starting after 0, more than 20000 outputs."
  },
  {
   "property": "C06",
   "status": "partial",
   "theorems": [
    "C06_contiguous",
    "C06_forward_bounded_partial",
    "C06_bounded_refuted",
    "C06_forward_refuted",
    "C06_backward_window_negative_step"
   ],
   "note": "Contiguity proved for all inputs; forward/bounded only for sorted end times within time_final, the general clause is refuted."
  },
  {
   "property": "C07",
   "status": "proved",
   "theorems": [
    "C07_build_3d_box",
    "C07_last_node",
    "C07_node_ids",
    "C07_complete",
    "C07_distinct_nodes",
    "C07_shared_face",
    "C07_no_other_sharing",
    "C07_build_3d_HexN",
    "C07_HexN_out_of_bounds",
    "C07_cell_volume",
    "C07_total_volume"
   ],
   "note": "Swage's allocation of nodes_in_elem (num_elems x 8) is taken as given; the arbitrary-order builder is proved correct for a wide enough array and shown to write out of bounds otherwise."
  },
  {
   "property": "C08",
   "status": "proved",
   "theorems": [
    "C08_build_2d_box",
    "C08_build_2d_polar",
    "C08_box_area",
    "C08_polar_area",
    "C08_polar_area_positive"
   ],
   "note": ""
  },
  {
   "property": "C09",
   "status": "proved",
   "theorems": [
    "C09_in_range",
    "C09_injective",
    "C09_surjective"
   ],
   "note": "int overflow not modelled"
  },
  {
   "property": "C10",
   "status": "partial",
   "theorems": [
    "C10_roundtrip",
    "C10_vtk_order_refuted",
    "C10_vtk_read_refuted"
   ],
   "note": "Round trip proved for every order and node list. The VTK-order clause is false of the code: refuted for every order >= 2, both for the writer and the reader."
  },
  {
   "property": "C11",
   "status": "partial",
   "theorems": [
    "C11_involution",
    "C11_hex_order",
    "C11_hex_volume",
    "C11_quad_area_refuted",
    "C11_quad_area_vtu"
   ],
   "note": "Holds for hexahedra. False of the code for 2D Ensight/VTK files: the reader swaps nodes 2 and 3 also for quads, so every rectangle gets area zero (C11_quad_area_refuted)."
  },
  {
   "property": "C12",
   "status": "proved",
   "theorems": [
    "C12_closure",
    "C12_translation"
   ],
   "note": "Real arithmetic; the B matrix text is generated from geometry_new.cpp."
  },
  {
   "property": "C13",
   "status": "proved",
   "theorems": [
    "C13_moments",
    "C13_volume_is_integral",
    "C13_gradient",
    "C13_affine",
    "C13_box",
    "C13_floor",
    "C13_inverted_cell_hidden"
   ],
   "note": "Stated for the volume before the 1e-14 floor; C13_floor relates the two and C13_inverted_cell_hidden shows that the floor hides inverted cells."
  },
  {
   "property": "C14",
   "status": "proved",
   "theorems": [
    "C14_closure",
    "C14_moments",
    "C14_area_is_integral",
    "C14_rz_volume",
    "C14_heron",
    "C14_corner_areas",
    "C14_corner_areas_total",
    "C14_corner_areas_nonneg"
   ],
   "note": ""
  },
  {
   "property": "C15",
   "status": "proved",
   "theorems": [
    "C15_setup",
    "C15_corner_share",
    "C15_nonneg",
    "C15_positive",
    "C15_run"
   ],
   "note": ""
  },
  {
   "property": "C16",
   "status": "proved",
   "theorems": [
    "C16_element_balance",
    "C16_stage",
    "C16_step",
    "C16_run",
    "C16_stage_mars"
   ],
   "note": "Exact for dissipation models that sum to zero over a cell; for MARS within 8 fuzz V of it, because the code falls back to a zero mean velocity when the impedance sum is below fuzz."
  },
  {
   "property": "C17",
   "status": "partial",
   "theorems": [
    "C17_step_balance",
    "C17_step_general",
    "C17_run",
    "C17_tallies",
    "C17_refuted"
   ],
   "note": "Holds up to the code's 1e-20 guard when no material erodes beneath another one in the same element; false otherwise (C17_refuted)."
  },
  {
   "property": "C18",
   "status": "proved",
   "theorems": [
    "C18_linear",
    "C18_translation",
    "C18_rotation",
    "C18_divergence"
   ],
   "note": "For cells whose volume is not at the 1e-14 floor."
  },
  {
   "property": "C19",
   "status": "proved",
   "theorems": [
    "C19_coefficients",
    "C19_stage",
    "C19_constant_force",
    "C19_free_flight"
   ],
   "note": ""
  },
  {
   "property": "C20",
   "status": "proved",
   "theorems": [
    "C20_pressure",
    "C20_positive",
    "C20_sound_speed_floor",
    "C20_sound_speed",
    "C20_sound_speed_monotone",
    "C20_isentropic"
   ],
   "note": ""
  },
  {
   "property": "C21",
   "status": "proved",
   "theorems": [
    "C21_irreversible",
    "C21_void",
    "C21_no_force",
    "C21_only_when_met",
    "C21_when_met"
   ],
   "note": "For the basic erosion model, the only one in the code; the criterion theorems cover materials whose equation of state and strength are decoupled."
  },
  {
   "property": "C22",
   "status": "proved",
   "theorems": [
    "C22_defined_iff",
    "C22_slot_to_element",
    "C22_element_to_slot",
    "C22_element_order"
   ],
   "note": "Serial set-up loop on checked ragged arrays."
  },
  {
   "property": "C23",
   "status": "partial",
   "theorems": [
    "C23_schedule",
    "C23_last_full_fill_wins",
    "C23_uncovered_is_empty",
    "C23_outside_unchanged",
    "C23_limit",
    "C23_defined",
    "C23_elsewhere_refuted",
    "C23_refill_refuted"
   ],
   "note": "All clauses are proved; the reading in which a fill elsewhere has no influence at all is refuted, because the search for an existing slot looks up the material of the fill with the slot's number. Refilling a material in an element with all slots used aborts."
  },
  {
   "property": "C24",
   "status": "partial",
   "theorems": [
    "C24_fractions_in_range",
    "C24_contents_partial",
    "C24_accepts_partial",
    "C24_one_slot_per_material_refuted",
    "C24_sum_refuted",
    "C24_sum_background_refuted"
   ],
   "note": "Range proved for all inputs; contents and one slot per material proved when no two fills share a material, refuted otherwise; the sum of fractions can exceed one (refuted)."
  },
  {
   "property": "C25",
   "status": "proved",
   "theorems": [
    "C25_shapes",
    "C25_total",
    "C25_growing",
    "C25_inside"
   ],
   "note": "Shapes other than voxel files; also: an element with all nodes in a convex shape is filled."
  },
  {
   "property": "C26",
   "status": "partial",
   "theorems": [
    "C26_centers_partial",
    "C26_last_layer_refuted",
    "C26_bounded_partial",
    "C26_outside_refuted",
    "C26_single_voxel_refuted",
    "C26_read_partial",
    "C26_read_refuted"
   ],
   "note": "Regular grids. The value is returned for all but the last layer of each direction; the last layer is never filled, points below the box can be filled, one voxel in a direction is undefined behaviour, and a last number alone on its line is not read."
  },
  {
   "property": "C27",
   "status": "proved",
   "theorems": [
    "C27_value",
    "C27_unique",
    "C27_at_points",
    "C27_at_jumps",
    "C27_between_neighbours",
    "C27_range",
    "C27_monotone",
    "C27_continuous",
    "C27_straight_lines",
    "C27_bad_column",
    "C27_empty"
   ],
   "note": "At an abscissa that occurs twice inside the table the first of the rows is returned."
  },
  {
   "property": "C28",
   "status": "partial",
   "theorems": [
    "C28_check_bdy",
    "C28_patch_sets",
    "C28_node_sets",
    "C28_node_order",
    "C28_global_matches_nothing",
    "C28_two_dimensional_refuted"
   ],
   "note": "Proved for every mesh whose dimension covers the surface equation. On a two-dimensional mesh a z plane or a sphere reads a coordinate that is never set (refuted). A 'global' set is always empty."
  },
  {
   "property": "C29",
   "status": "partial",
   "theorems": [
    "C29_sets_of_solver",
    "C29_sets_in_input_order",
    "C29_fixed_and_constant",
    "C29_other_nodes_unchanged",
    "C29_order_independent",
    "C29_reflected_iff",
    "C29_reflected_refuted",
    "C29_reflected_oblique_refuted",
    "C29_piston_partial",
    "C29_piston_outside_window",
    "C29_piston_refuted"
   ],
   "note": "Fixed, constant and order independence are proved in full. The reflected condition is right iff the direction is a positive unit axis; -x doubles the velocity and oblique directions are not projected."
  },
  {
   "property": "C30",
   "status": "partial",
   "theorems": [
    "C30_range",
    "C30_source_layout",
    "C30_update",
    "C30_sum",
    "C30_sum_refuted",
    "C30_pure",
    "C30_direction",
    "C30_order_independent"
   ],
   "note": "Range is unconditional. The sum is preserved up to terms proportional to the regularisation exactly when it is one before the call; when it differs from one it drifts by (1-sum)*div*alpha*dt (refuted with a witness)."
  },
  {
   "property": "C31",
   "status": "proved",
   "theorems": [
    "C31_mesh",
    "C31_element",
    "C31_stage",
    "C31_run",
    "C31_uniform",
    "C31_linear"
   ],
   "note": "Stages that read outside an array or divide by zero capacity are undefined and excluded; by C32_first_covers the first material then fills the mesh."
  },
  {
   "property": "C32",
   "status": "partial",
   "theorems": [
    "C32_defined_iff",
    "C32_first_covers",
    "C32_two_regions_undefined",
    "C32_last_wins",
    "C32_single_partial",
    "C32_sum_refuted",
    "C32_capacity_refuted"
   ],
   "note": "Refuted: the heat of an element is that of its last material only, and node heat capacities always come from material 0. Materials that do not share elements with material 0 lead to reads outside the arrays."
  },
  {
   "property": "C33",
   "status": "partial",
   "theorems": [
    "C33_convection",
    "C33_radiation",
    "C33_loss",
    "C33_total",
    "C33_area_partial",
    "C33_area_refuted",
    "C33_order"
   ],
   "note": "The area is right if the diagonal 0-2 splits the patch; refuted for a plane patch with a re-entrant corner."
  },
  {
   "property": "C34",
   "status": "partial",
   "theorems": [
    "C34_stage_bounded_partial",
    "C34_step_bounded_partial",
    "C34_change_bounded",
    "C34_other_elements_kept",
    "C34_zero_kept",
    "C34_plane_front",
    "C34_distance_front",
    "C34_uniform_interior",
    "C34_gradient_sign_refuted",
    "C34_uniform_refuted",
    "C34_shared_element_refuted",
    "C34_defined",
    "C34_element_order",
    "C34_node_order"
   ],
   "note": "Average bounded by the steepest nodal gradient and nonnegative with wall boundary conditions; sign in (-1,1). Refuted: a uniform field stays uniform (fails at free surfaces; only zero stays); the stored nodal gradient is minus the gradient; in an element with two evolving materials the last one overwrites."
  },
  {
   "property": "C35",
   "status": "proved",
   "theorems": [
    "C35_split",
    "C35_split_leftmost",
    "C35_join_split",
    "C35_join_split_char",
    "C35_terminates",
    "C35_empty_delimiter_hangs",
    "C35_trim",
    "C35_trim_unique",
    "C35_trim_idempotent",
    "C35_array_values",
    "C35_array_values_defined",
    "C35_extract_list"
   ],
   "note": "atof is not modelled. The theorems also say when the helpers do not end or are undefined: empty delimiter, and bracket removal on strings shorter than two characters."
  },
  {
   "property": "C36",
   "status": "proved",
   "theorems": [
    "C36_faithful",
    "C36_nodes",
    "C36_schedule"
   ],
   "note": "The mesh of a material written to its file: every element once in order, corners on the nodes of the mesh, exactly the nodes used, coordinates kept, independent of the schedules of the two parallel loops."
  },
  {
   "property": "C37",
   "status": "partial",
   "theorems": [
    "C37_count",
    "C37_index_partial",
    "C37_index_only",
    "C37_index_refuted"
   ],
   "note": "The index of an output lists exactly the material files written iff the materials without elements come last; refuted otherwise (it lists mat0..mat(n-1) for n files written)."
  },
  {
   "property": "C38",
   "status": "partial",
   "theorems": [
    "C38_sgh_accepts",
    "C38_sgtm_accepts",
    "C38_order_and_repetition",
    "C38_parse_fails",
    "C38_every_region_refuted",
    "C38_raw_check_refuted",
    "C38_node_allocation",
    "C38_gauss_allocation",
    "C38_corner_allocation",
    "C38_material_allocation",
    "C38_fill_allocation_partial",
    "C38_internal_energy_refuted",
    "C38_internal_energy_first"
   ],
   "note": "Acceptance is proved for parsed inputs. Refuted: completeness per region, the check on raw lists with repetitions, and the allocation of the fill array for extensive energy when specific energy was requested before."
  },
  {
   "property": "C39",
   "status": "partial",
   "theorems": [
    "C39_distinct",
    "C39_in_range",
    "C39_no_gaps",
    "C39_fill_gauss_partial",
    "C39_fill_gauss_refuted"
   ],
   "note": "All storage maps of state.hpp are proved. The index elem+lid used by the region fills collides for more than one gauss point per element (refuted); it is collision free exactly for one."
  },
  {
   "property": "C40",
   "status": "partial",
   "theorems": [
    "C40_sum_of_materials_partial",
    "C40_own_contribution",
    "C40_refuted",
    "C40_later_erosion_wipes"
   ],
   "note": "False of the code: an eroded material point sets the corner force of the whole element to zero, which removes what earlier materials added."
  },
  {
   "property": "C41",
   "status": "partial",
   "theorems": [
    "C41_density",
    "C41_volume",
    "C41_coupled_single_material_partial",
    "C41_coupled_refuted"
   ],
   "note": "Proved for decoupled equations of state; false for coupled ones in mixed elements, where the volume fraction is left out."
  },
  {
   "property": "C42",
   "status": "partial",
   "theorems": [
    "C42_partial",
    "C42_regular",
    "C42_trace",
    "C42_spherical_undefined",
    "C42_singular",
    "C42_refuted"
   ],
   "note": "Proved for every symmetric tensor with a non-zero determinant that is not a multiple of the unit tensor. Refuted outside: singular tensors (for instance uniaxial stretch) give 0, and multiples of the unit tensor divide by zero."
  },
  {
   "property": "C43",
   "status": "partial",
   "theorems": [
    "C43_race_free",
    "C43_terminates",
    "C43_masses",
    "C43_force",
    "C43_velocity",
    "C43_energy",
    "C43_position",
    "C43_timestep",
    "C43_tallies",
    "C43_paint_partial",
    "C43_paint_order",
    "C43_paint_refuted",
    "C43_listed_twice"
   ],
   "note": "Proved for all interleavings of single accesses for the mass, force, velocity, energy and position loops and for all reduction plans of the time step and the tallies. Refuted for the painting of velocities on nodes shared by regions with different velocities (a race), and for a material that lists an element twice (a lost update)."
  },
  {
   "property": "C44",
   "status": "partial",
   "theorems": [
    "C44_negative_radius_refuted",
    "C44_valid_radius_rejected"
   ],
   "note": "False of the code: the check reads coordinate 0 (axial) instead of 1. Both halves refuted with witnesses."
  },
  {
   "property": "C45",
   "status": "proved",
   "theorems": [
    "C45_defined_iff",
    "C45_corners",
    "C45_sums"
   ],
   "note": "The swage mesh library is not part of the repository; the contract is taken from the legacy mesh.h in the repository."
  },
  {
   "property": "C46",
   "status": "partial",
   "theorems": [
    "C46_viscous",
    "C46_galilean",
    "C46_limiter",
    "C46_spin",
    "C46_rz_spin_refuted",
    "C46_solver_work",
    "C46_directional_box"
   ],
   "note": "All parts hold for the 3D kernels; the RZ kernels keep the sign of the curl, so independence of the sense of rotation is false of them."
  },
  {
   "property": "C47",
   "status": "partial",
   "theorems": [
    "C47_read_file",
    "C47_value_temperature",
    "C47_accepted",
    "C47_own_table_partial",
    "C47_shared_table_refuted",
    "C47_last_table_wins",
    "C47_missing_field"
   ],
   "note": "The reader is proved for all files; std::stod is a parameter. That each material has its own table is false of the code: there is one table per property, and the last material read wins (C47_shared_table_refuted)."
  },
  {
   "property": "C48",
   "status": "proved",
   "theorems": [
    "C48_tool_path"
   ],
   "note": ""
  },
  {
   "property": "C49",
   "status": "proved",
   "theorems": [
    "C49_pressure",
    "C49_pressure_monotone",
    "C49_sound_speed",
    "C49_consistent"
   ],
   "note": ""
  },
  {
   "property": "C50",
   "status": "proved",
   "theorems": [
    "C50_total_force",
    "C50_closed_surface",
    "C50_nodal_force",
    "C50_set_order",
    "C50_patch_order"
   ],
   "note": ""
  },
  {
   "property": "C51",
   "status": "proved",
   "theorems": [
    "C51_mass",
    "C51_energy",
    "C51_frame"
   ],
   "note": "The 1e-20 regularisation of the source is part of the statements."
  },
  {
   "property": "C52",
   "status": "partial",
   "theorems": [
    "C52_given_velocity",
    "C52_radial_velocity",
    "C52_spherical_velocity",
    "C52_origin",
    "C52_vortex",
    "C52_level_set_sphere",
    "C52_level_set_cylinder_refuted",
    "C52_volume_fraction_origin_refuted",
    "C52_spherical_2d_refuted",
    "C52_nodes_partial",
    "C52_nodes_refuted"
   ],
   "note": "Velocities and the spherical level set are proved; refuted: radial level set, origin of volume fractions, spherical velocity in 2D, order independence at interfaces of different regions."
  },
  {
   "property": "C53",
   "status": "partial",
   "theorems": [
    "C53_point_values_partial",
    "C53_zero_mass_refuted",
    "C53_material_mass_partial",
    "C53_total_mass_partial",
    "C53_level_set_partial",
    "C53_several_points_refuted"
   ],
   "note": "Proved for one gauss point per element, the only value the solvers use; refuted for more, because the index of a point is element slot + gauss number. A given total energy in a slot of zero mass is undefined."
  },
  {
   "property": "C54",
   "status": "partial",
   "theorems": [
    "C54_cycle",
    "C54_power",
    "C54_first_position_refuted"
   ],
   "note": "The power balance holds for every cycle; the position during the first cycle is the origin instead of the start of the tool path (refuted)."
  },
  {
   "property": "C55",
   "status": "proved",
   "theorems": [
    "C55_prescribed",
    "C55_free"
   ],
   "note": ""
  },
  {
   "property": "C56",
   "status": "proved",
   "theorems": [
    "C56_step_bounds",
    "C56_stability",
    "C56_ends",
    "C56_outputs",
    "C56_schedule"
   ],
   "note": "Proved by a simulation of the thermal cycle loop by the hydro one; the limits on outputs of C05 (cycle limit, late start) hold here too."
  },
  {
   "property": "C57",
   "status": "proved",
   "theorems": [
    "C57_melting",
    "C57_step"
   ],
   "note": ""
  },
  {
   "property": "C58",
   "status": "partial",
   "theorems": [
    "C58_step_bounds",
    "C58_cfl",
    "C58_size",
    "C58_front_travel",
    "C58_negative_velocity_refuted",
    "C58_never_grows",
    "C58_ends",
    "C58_overshoot_refuted",
    "C58_outputs",
    "C58_spacing",
    "C58_drift_refuted"
   ],
   "note": "Holds for fronts with velocities >= 0 and some evolving material in every cycle. Refuted: for negative velocities the CFL limit uses 1.5+F instead of 1.5+|F|; without an evolving material the end is overshot; with a material that does not evolve the step never grows; output lateness accumulates."
  },
  {
   "property": "C59",
   "status": "partial",
   "theorems": [
    "C59_parse",
    "C59_elem",
    "C59_between",
    "C59_total_mass",
    "C59_energy",
    "C59_node",
    "C59_node_partial",
    "C59_mat",
    "C59_repeats",
    "C59_repeats_refuted",
    "C59_node_refuted"
   ],
   "note": "Proved for lists without repeated names. Refuted for repeated names (the first column is zero, the last one a multiple, energies are halved when mass is repeated) and for the third component of 3D node coordinates (written to a single node)."
  },
  {
   "property": "C60",
   "status": "proved",
   "theorems": [
    "C60_series",
    "C60_entries",
    "C60_limit"
   ],
   "note": "More than 20000 outputs overrun graphics_times (undefined)."
  },
  {
   "property": "C61",
   "status": "proved",
   "theorems": [
    "C61_distinct",
    "C61_distinct_index",
    "C61_distinct_series",
    "C61_kinds",
    "C61_length",
    "C61_other_solver",
    "C61_no_stale"
   ],
   "note": "The shell glob patterns of the initial clean-up are modelled by their prefix."
  },
  {
   "property": "C62",
   "status": "partial",
   "theorems": [
    "C62_setup_masses_partial",
    "C62_corner_masses",
    "C62_mixed_refuted"
   ],
   "note": "Proved for elements filled by one material (volume fraction 1) and non-inverted corner triangles. Refuted for mixed elements: the volume fraction is missing from calc_corner_mass_rz, so nodes get the mass of every material as if it filled the element."
  },
  {
   "property": "C63",
   "status": "partial",
   "theorems": [
    "C63_areal_partial",
    "C63_mass_kept",
    "C63_leaving_axis_refuted"
   ],
   "note": "The rule and the preservation of mass are proved for nodes that stay clear of the axis or are boundary nodes on it beside one that is clear. Refuted: a node that leaves the axis gets areal mass zero. A node at radius exactly tiny, or an interior node on the axis, also gets zero."
  },
  {
   "property": "C64",
   "status": "proved",
   "theorems": [
    "C64_radius",
    "C64_stage",
    "C64_step"
   ],
   "note": ""
  },
  {
   "property": "C65",
   "status": "partial",
   "theorems": [
    "C65_tallies",
    "C65_execute_partial",
    "C65_step",
    "C65_axis_refuted"
   ],
   "note": "Proved for runs in which every node is clear of the axis or a massless boundary node on it. In general C65_step gives the exact error. Refuted for nodes that run into the axis: the clamp keeps their mass per radian, and the next step creates energy."
  },
  {
   "property": "C66",
   "status": "partial",
   "theorems": [
    "C66_execute_partial",
    "C66_viscosity_refuted"
   ],
   "note": "Proved without artificial viscosity (or with one that is balanced when weighted with the radius) for non-inverted elements. Refuted for the viscosity of the code: forces balance without the radius weight, so it pushes elements along the axis and can take internal energy."
  },
  {
   "property": "C67",
   "status": "partial",
   "theorems": [
    "C67_linear",
    "C67_divergence",
    "C67_hoop_partial",
    "C67_hoop_refuted"
   ],
   "note": "In-plane part and divergence proved for all elements; hoop rate proved for parallelograms and refuted for a trapezoid (9/8 instead of 1)."
  },
  {
   "property": "C68",
   "status": "proved",
   "theorems": [
    "C68_forces",
    "C68_uniform_pressure",
    "C68_rest"
   ],
   "note": ""
  },
  {
   "property": "C69",
   "status": "partial",
   "theorems": [
    "C69_density_partial",
    "C69_strength_refuted"
   ],
   "note": "Proved where the material fills its element or has no state-based strength model; refuted otherwise: the second density update ignores the share."
  },
  {
   "property": "C70",
   "status": "proved",
   "theorems": [
    "C70_update",
    "C70_run",
    "C70_pressure"
   ],
   "note": ""
  },
  {
   "property": "C71",
   "status": "partial",
   "theorems": [
    "C71_elastic",
    "C71_return",
    "C71_plastic_work",
    "C71_isotropy",
    "C71_hold_partial",
    "C71_hold_refuted",
    "C71_rotation_partial",
    "C71_rotation_refuted"
   ],
   "note": "Refuted: a yield strength of order 1e-9 in the unit of stress lets stress below yield leak away at rest (fuzz 1e-16 is absolute); a finite rigid rotation raises the von Mises stress. Elastic response, return, dissipation and frame independence proved."
  },
  {
   "property": "C72",
   "status": "partial",
   "theorems": [
    "C72_update",
    "C72_run",
    "C72_trace_refuted"
   ],
   "note": "Symmetry, absence of out-of-plane shear and the yield bound are proved for every run; zero trace is refuted (a rigid rotation of a sheared state creates a trace, which acts as extra pressure)."
  },
  {
   "property": "C73",
   "status": "partial",
   "theorems": [
    "C73_hold",
    "C73_stretch_partial",
    "C73_shear_refuted",
    "C73_units_refuted"
   ],
   "note": "Rest and stretching from an unstressed state proved. Refuted: shear stress is half of Hooke's law (G instead of 2G with the tensor shear rate); the rotation terms are quadratic in the stress, so the answer depends on the unit."
  },
  {
   "property": "C74",
   "status": "proved",
   "theorems": [
    "C74_pairs",
    "C74_slots"
   ],
   "note": ""
  },
  {
   "property": "C75",
   "status": "partial",
   "theorems": [
    "C75_matches",
    "C75_complete_partial",
    "C75_complete_refuted"
   ],
   "note": "Recorded faces proved sound and one-to-one; completeness proved for elements left without any partner, refuted where the interface has a corner (an element can record only one face per pair)."
  },
  {
   "property": "C76",
   "status": "partial",
   "theorems": [
    "C76_parts",
    "C76_frame",
    "C76_translation",
    "C76_spin",
    "C76_spin_refuted"
   ],
   "note": "Decomposition, frame independence and translation proved; refuted for rotation: the prediction of a rotating open pair overshoots by the tangent, which damages it."
  },
  {
   "property": "C77",
   "status": "partial",
   "theorems": [
    "C77_damage",
    "C77_growth",
    "C77_last_stage",
    "C77_compression_refuted"
   ],
   "note": "Bounds, monotonicity, the growth law and the role of the last stage proved; refuted: being pressed together counts as opening."
  },
  {
   "property": "C78",
   "status": "partial",
   "theorems": [
    "C78_law_partial",
    "C78_failed_partial",
    "C78_frozen",
    "C78_two_stage",
    "C78_failed_refuted",
    "C78_prony_refuted",
    "C78_spin_drift"
   ],
   "note": "Law proved without Prony terms when successive openings join up. Refuted: under the two-stage scheme the opening of the first half step is never counted, so a failed zone keeps a traction for ever; with a Prony term the history is advanced before it is used, with the same effect; rigid rotation of an open zone accumulates tangential traction proportional to the angle."
  },
  {
   "property": "C79",
   "status": "partial",
   "theorems": [
    "C79_momentum",
    "C79_resist",
    "C79_aligned_partial",
    "C79_torque_refuted",
    "C79_area",
    "C79_share",
    "C79_face_normal",
    "C79_direction",
    "C79_normal"
   ],
   "note": "All proved except absence of torque, which holds for equal normal and tangential stiffness and is refuted otherwise."
  },
  {
   "property": "C80",
   "status": "partial",
   "theorems": [
    "C80_motion",
    "C80_sides",
    "C80_opening_partial",
    "C80_opening_refuted"
   ],
   "note": "The motion is as documented; the effective opening is independent of the rotation for equal characteristic lengths, refuted for different ones."
  },
  {
   "property": "C81",
   "status": "partial",
   "theorems": [
    "C81_terms_partial",
    "C81_terms_refuted"
   ],
   "note": "Proved up to ten terms; the eleventh and twelfth are read as zero and thirteen or more read outside the buffer."
  },
  {
   "property": "C82",
   "status": "proved",
   "theorems": [
    "C82_sort",
    "C82_grid"
   ],
   "note": "Assumes two boundary nodes at different places."
  },
  {
   "property": "C83",
   "status": "partial",
   "theorems": [
    "C83_search",
    "C83_patch",
    "C83_overrun_refuted"
   ],
   "note": "Proved when the box spans at most 62 layers of buckets in some direction; refuted otherwise: a single block whose top runs corner to corner overruns the 64^3 list of buckets."
  },
  {
   "property": "C84",
   "status": "partial",
   "theorems": [
    "C84_test",
    "C84_recorded",
    "C84_inside",
    "C84_slack_refuted"
   ],
   "note": "Test and record proved sound and complete; refuted: the slack 0.01 is absolute, so a node several element widths away is recorded for small elements."
  },
  {
   "property": "C85",
   "status": "partial",
   "theorems": [
    "C85_slots",
    "C85_slots_preload",
    "C85_distinct_refuted"
   ],
   "note": "Slots and choice proved; refuted: a slot whose element has no eligible patch repeats the previous slot's patch, which doubles the pair."
  },
  {
   "property": "C86",
   "status": "proved",
   "theorems": [
    "C86_inverse",
    "C86_face",
    "C86_foot"
   ],
   "note": "Exact foot for parallelepipeds; for other shapes the converged inverse is within 1e-8."
  },
  {
   "property": "C87",
   "status": "partial",
   "theorems": [
    "C87_balance",
    "C87_interior",
    "C87_push",
    "C87_moment",
    "C87_shares_partial",
    "C87_release_refuted"
   ],
   "note": "Balance, no pull and the moment law proved; forces equal to the pairs' shares only while points and normals stay; refuted: a pair released after its normal turned leaves a force behind."
  },
  {
   "property": "C88",
   "status": "proved",
   "theorems": [
    "C88_converged",
    "C88_head_on"
   ],
   "note": ""
  },
  {
   "property": "C89",
   "status": "proved",
   "theorems": [
    "C89_read",
    "C89_unique",
    "C89_layout",
    "C89_last"
   ],
   "note": "For documents of block mappings, block sequences and one-line texts, bare or quoted (doc in YamlSpec.v); texts over several lines, '|' and '>' blocks are in the model but not in this theorem."
  },
  {
   "property": "C90",
   "status": "proved",
   "theorems": [
    "C90_total",
    "C90_regular",
    "C90_walk",
    "C90_error_clears"
   ],
   "note": ""
  },
  {
   "property": "C91",
   "status": "partial",
   "theorems": [
    "C91_get_set",
    "C91_push",
    "C91_erase",
    "C91_lookup",
    "C91_lookup_adds",
    "C91_lookup_refuted",
    "C91_gap_refuted"
   ],
   "note": "Laws proved; refuted: looking a key up adds it, or deletes the text of a scalar node; erasing an index leaves a gap."
  },
  {
   "property": "C92",
   "status": "partial",
   "theorems": [
    "C92_round_trip",
    "C92_small_indent",
    "C92_all_refuted"
   ],
   "note": "Proved for values of one line, without quotes or '#', up to the fold length (YamlSpec.writable); refuted for values with double quotes, empty values, empty containers, values ending in a line feed."
  },
  {
   "property": "C93",
   "status": "partial",
   "theorems": [
    "C93_copy",
    "C93_regular",
    "C93_empty_refuted"
   ],
   "note": "Proved without empty containers; refuted for those: the copy of an empty sequence has no type."
  },
  {
   "property": "C94",
   "status": "partial",
   "theorems": [
    "C94_push_front_refuted",
    "C94_insert_refuted"
   ],
   "note": "Refuted for every non-empty sequence: PushFront never returns; Insert never returns inside, drops the node at the end, and loses entry 1 at the front."
  },
  {
   "property": "C95",
   "status": "partial",
   "theorems": [
    "C95_misplaced_field_refuted",
    "C95_stray_line_refuted",
    "C95_dropped_refuted",
    "C95_merged_refuted",
    "C95_values_refuted",
    "C95_refused_refuted"
   ],
   "note": "Refuted by witnesses; the positive form for well-formed documents is C89."
  },
  {
   "property": "C96",
   "status": "partial",
   "theorems": [
    "C96_dynamic",
    "C96_accepts",
    "C96_rejects",
    "C96_integers",
    "C96_from_file",
    "C96_missing_refuted",
    "C96_blank_refuted",
    "C96_cycles_refuted"
   ],
   "note": "Proved except for the last clause, which is refuted: a missing section loops for ever, a missing value leaves the option unset, exponents of cycle counts are cut, negative ones wrap."
  },
  {
   "property": "C97",
   "status": "partial",
   "theorems": [
    "C97_solvers",
    "C97_accepts",
    "C97_no_list_refuted",
    "C97_text_id_refuted"
   ],
   "note": "Proved; refuted: a mapping in place of the list loops for ever, an identifier that is no number counts as 0."
  },
  {
   "property": "C98",
   "status": "partial",
   "theorems": [
    "C98_mesh",
    "C98_accepts",
    "C98_exit_refuted",
    "C98_incomplete_refuted",
    "C98_numbers_refuted"
   ],
   "note": "Proved; refuted: a generated mesh with a file name exits with status 0, missing file name or type is accepted, unbracketed vectors lose characters, four numbers lose the third, one number reads past the array."
  },
  {
   "property": "C99",
   "status": "partial",
   "theorems": [
    "C99_output",
    "C99_accepts",
    "C99_inline_refuted"
   ],
   "note": "Proved; refuted: a list written in one line is accepted as an empty list."
  },
  {
   "property": "C100",
   "status": "partial",
   "theorems": [
    "C100_conditions",
    "C100_temperature_refuted",
    "C100_heat_flux_refuted"
   ],
   "note": "Proved for every successful reading; refuted: an unknown temperature model is accepted without a model, the offered heat_flux_model is refused."
  },
  {
   "property": "C101",
   "status": "partial",
   "theorems": [
    "C101_materials",
    "C101_regions",
    "C101_region_refuted",
    "C101_multimaterial",
    "C101_geo_refuted"
   ],
   "note": "Proved; refuted: a region without solver is filled by none, a solver that does not exist indexes outside the array, the geometric equilibration model replaces that of the materials."
  },
  {
   "property": "C102",
   "status": "partial",
   "theorems": [
    "C102_inverse",
    "C102_positive",
    "C102_regular_refuted",
    "C102_flag_refuted"
   ],
   "note": "Proved for leading-regular and positive definite matrices; refuted for regular ones (no row exchange) and for the flag (always 0)."
  },
  {
   "property": "C103",
   "status": "proved",
   "theorems": [
    "C103_power"
   ],
   "note": ""
  },
  {
   "property": "C104",
   "status": "proved",
   "theorems": [
    "C104_constants",
    "C104_tensor",
    "C104_vector",
    "C104_product",
    "C104_fourth"
   ],
   "note": "The decimal constants are within 1e-16 of the roots the model uses."
  },
  {
   "property": "C105",
   "status": "proved",
   "theorems": [
    "C105_anisotropic",
    "C105_isotropic",
    "C105_isotropic_elastic",
    "C105_rotated",
    "C105_stable",
    "C105_isotropy",
    "C105_reference"
   ],
   "note": ""
  },
  {
   "property": "C106",
   "status": "partial",
   "theorems": [
    "C106_rotation",
    "C106_round",
    "C106_angles",
    "C106_poles_refuted"
   ],
   "note": "Proved away from the poles and at them; within a hundredth of a radian of a pole the written angles are those of the pole (refuted)."
  },
  {
   "property": "C107",
   "status": "partial",
   "theorems": [
    "C107_history",
    "C107_turn",
    "C107_slow_refuted",
    "C107_spin_partial",
    "C107_spin_refuted"
   ],
   "note": "Rotation for every history; turn by the norm of the increment between 1e-6 and pi; increments below 1e-6 are lost however many there are (refuted); a symmetric imposed gradient turns the lattice with the material, one with spin turns it twice as far (refuted)."
  },
  {
   "property": "C108",
   "status": "proved",
   "theorems": [
    "C108_resolved",
    "C108_pressure",
    "C108_rate",
    "C108_law",
    "C108_flow",
    "C108_dissipation"
   ],
   "note": "For exponents 1..2^31-1 and positive strengths, in exact arithmetic."
  },
  {
   "property": "C109",
   "status": "partial",
   "theorems": [
    "C109_cubic",
    "C109_hexagonal",
    "C109_system",
    "C109_modes",
    "C109_obtuse_refuted",
    "C109_order_refuted"
   ],
   "note": "Refuted: an obtuse angle between normal and direction passes the check; modes asked for in another order than the file's are lost."
  },
  {
   "property": "C110",
   "status": "partial",
   "theorems": [
    "C110_voce",
    "C110_shear",
    "C110_history",
    "C110_grows",
    "C110_parameters",
    "C110_coefficients",
    "C110_weak_refuted",
    "C110_numbers_refuted"
   ],
   "note": "Refuted: slopes under 1e-4 of the strength count for nothing; where the file numbers its modes otherwise than by place the coefficients of other modes are taken."
  },
  {
   "property": "C111",
   "status": "proved",
   "theorems": [
    "C111_correction",
    "C111_fixed_point",
    "C111_others",
    "C111_frequencies"
   ],
   "note": "At frequencies other than zero and Nyquist's; those two as the code treats them (C111_others)."
  },
  {
   "property": "C112",
   "status": "partial",
   "theorems": [
    "C112_tangent",
    "C112_solution_kept",
    "C112_fixed_point",
    "C112_terminates",
    "C112_spin",
    "C112_units_refuted",
    "C112_accuracy"
   ],
   "note": "Convergence to a solution is not claimed (at most 100 iterations). Refuted: the test for the end divides a squared stress by a stress, so its accuracy depends on the unit."
  },
  {
   "property": "C113",
   "status": "partial",
   "theorems": [
    "C113_stress",
    "C113_phase",
    "C113_imposed",
    "C113_reported",
    "C113_mixed_partial",
    "C113_plastic",
    "C113_phase_refuted",
    "C113_mixed_refuted",
    "C113_plastic_run"
   ],
   "note": "The correction in Fourier space is taken to have no mean, which C117_mean proves of the transform. Refuted: the mean over the first phase is multiplied by the number of processes; with stresses prescribed the last correction of a step is reported but never added to the field."
  },
  {
   "property": "C114",
   "status": "partial",
   "theorems": [
    "C114_checked",
    "C114_imposed",
    "C114_attained",
    "C114_towards",
    "C114_shear_refuted"
   ],
   "note": "Refuted: where a shear rate is imposed above the diagonal and left open below it, the imposed component is corrected and the open one is not."
  },
  {
   "property": "C115",
   "status": "proved",
   "theorems": [
    "C115_strain",
    "C115_stress",
    "C115_plastic",
    "C115_axes",
    "C115_strain_axes",
    "C115_shape",
    "C115_triangle",
    "C115_zero",
    "C115_tension"
   ],
   "note": "In exact arithmetic."
  },
  {
   "property": "C116",
   "status": "partial",
   "theorems": [
    "C116_deformation",
    "C116_bounded",
    "C116_tangent",
    "C116_within",
    "C116_hold_refuted",
    "C116_volume_refuted",
    "C116_strain_refuted",
    "C116_gas_refuted",
    "C116_beyond",
    "C116_once"
   ],
   "note": "Refuted: time at rest is dropped; a pure change of volume never runs the grid again; the strain the grid reports lags when the load changes; a gas point makes the mean tangent read memory never written."
  },
  {
   "property": "C117",
   "status": "partial",
   "theorems": [
    "C117_transform",
    "C117_mean",
    "C117_layout",
    "C117_strain",
    "C117_equilibrium",
    "C117_fixed_point",
    "C117_uniform",
    "C117_compatible_partial",
    "C117_nyquist_refuted"
   ],
   "note": "What heFFTe computes is assumed to be the discrete Fourier transform. With an even number of points a stress that alternates from point to point gets a correction that is no gradient (C117_nyquist_refuted); without such a part of the stress, or with odd numbers, it is (C117_compatible_partial)."
  },
  {
   "property": "C118",
   "status": "partial",
   "theorems": [
    "C118_gauss",
    "C118_lobatto",
    "C118_midpoint",
    "C118_points",
    "C118_element",
    "C118_twelve_refuted",
    "C118_order_ten_refuted"
   ],
   "note": "Up to 1e-29 times the coefficients. Refuted: the 12-point Lobatto rule has a wrong digit in two points and is off by more than 4e-15; from order ten on no rule exists and all points have weight zero."
  },
  {
   "property": "C119",
   "status": "partial",
   "theorems": [
    "C119_kinematic",
    "C119_unity",
    "C119_nodal",
    "C119_thermodynamic",
    "C119_dg_positions_refuted"
   ],
   "note": "Refuted: the positions of the thermodynamic nodes are allocated but never filled."
  },
  {
   "property": "C120",
   "status": "partial",
   "theorems": [
    "C120_schedules",
    "C120_layout",
    "C120_points",
    "C120_order_zero_refuted"
   ],
   "note": "Refuted: order zero reads and writes past the end of one-entry arrays."
  },
  {
   "property": "C121",
   "status": "partial",
   "theorems": [
    "C121_decomposed",
    "C121_returns",
    "C121_no_division_by_zero",
    "C121_small_increment",
    "C121_rotation",
    "C121_quarter_turn_refuted"
   ],
   "note": "R is a rotation up to 4e-12. Refuted for deformations that turn a vector by a right angle: for the quarter turn about the third axis a singular matrix is returned as the rotation, without a message."
  },
  {
   "property": "C122",
   "status": "partial",
   "theorems": [
    "C122_kinematics",
    "C122_increment",
    "C122_single_slip",
    "C122_plastic_volume_partial",
    "C122_plastic_volume_refuted",
    "C122_spin_refuted",
    "C122_step"
   ],
   "note": "For steps that deform no point by more than 2/3. Refuted: the exponential is cut after the third power, so flow on two slip systems and rigid spins change the volume, by at most a twentieth of the fourth power of the increment."
  },
  {
   "property": "C123",
   "status": "partial",
   "theorems": [
    "C123_reported",
    "C123_first",
    "C123_later",
    "C123_constant_partial",
    "C123_uniform_stress",
    "C123_change_refuted",
    "C123_pass",
    "C123_carried"
   ],
   "note": "Refuted: a prescribed velocity gradient that changes between two steps is applied one step late, since the field is set to it in the first step only."
  },
  {
   "property": "C124",
   "status": "partial",
   "theorems": [
    "C124_faces",
    "C124_shared",
    "C124_written_faces",
    "C124_undeformed",
    "C124_positions_partial",
    "C124_positions_refuted",
    "C124_processes_refuted",
    "C124_uniform_refuted",
    "C124_first_order"
   ],
   "note": "Refuted: positions are scaled by delt(3) a second time; they depend on the processes, and a uniform stretch is not written as one, since nodes are moved by sums of velocities and the mean deformation by products of exponentials."
  },
  {
   "property": "C125",
   "status": "partial",
   "theorems": [
    "C125_transport",
    "C125_rigid",
    "C125_stiffness"
   ],
   "note": "For rotations that turn no vector by a right angle; the stiffness for elastic deformations that are rotations. For others see C121_quarter_turn_refuted."
  },
  {
   "property": "C126",
   "status": "partial",
   "theorems": [
    "C126_tangent",
    "C126_solution_kept",
    "C126_rest",
    "C126_fixed_point",
    "C126_unique",
    "C126_line_search",
    "C126_descent",
    "C126_terminates",
    "C126_pressure_refuted",
    "C126_accuracy",
    "C126_spin",
    "C126_residual",
    "C126_slip"
   ],
   "note": "That the iteration always gives a stress is false for phases without slip systems: C126_pressure_refuted. That it reaches the solution within a hundred iterations is not proved. The residual never grows unless ten halvings were not enough."
  },
  {
   "property": "C127",
   "status": "partial",
   "theorems": [
    "C127_flow",
    "C127_dissipates",
    "C127_monotone",
    "C127_isotropic",
    "C127_pressure",
    "C127_yield_refuted",
    "C127_linear",
    "C127_zero_refuted",
    "C127_tangent",
    "C127_history",
    "C127_grows",
    "C127_units_refuted"
   ],
   "note": "Three clauses are false: the reference rate is not met unless the exponent is one (C127_yield_refuted), a stress without deviator has no flow, not zero flow (C127_zero_refuted), and the scales do not reach the strength (C127_units_refuted)."
  },
  {
   "property": "C128",
   "status": "partial",
   "theorems": [
    "C128_stress",
    "C128_green",
    "C128_together",
    "C128_components",
    "C128_green_components",
    "C128_product",
    "C128_undeformed",
    "C128_stable",
    "C128_turned_refuted",
    "C128_restored",
    "C128_inverse",
    "C128_self"
   ],
   "note": "Stable while no direction is turned by a right angle (C128_stable); a specimen turned by a right angle has a medium without resistance to some expansion (C128_turned_refuted)."
  },
  {
   "property": "C129",
   "status": "proved",
   "theorems": [
    "C129_size",
    "C129_step_bounds",
    "C129_cfl",
    "C129_eroded",
    "C129_axis",
    "C129_progress",
    "C129_reaches_final_time",
    "C129_outputs",
    "C129_schedule",
    "C129_defined",
    "C129_crawl_when_behind"
   ],
   "note": "The interval between outputs is kept by a solver that starts at time zero (C129_schedule); one that starts later crawls (C129_crawl_when_behind), and a run that ends on its cycle limit does not write its last state, as in 3D (C05)."
  },
  {
   "property": "C130",
   "status": "partial",
   "theorems": [
    "C130_arrays",
    "C130_counts",
    "C130_numbering",
    "C130_fields",
    "C130_cells",
    "C130_pieces",
    "C130_names",
    "C130_seamless",
    "C130_positions_partial",
    "C130_positions_needed",
    "C130_positions_refuted",
    "C130_start"
   ],
   "note": "The corners are placed right only where the gradient does not couple directions with different voxel sizes: the code scales by the voxel size of the row instead of the column (C130_positions_refuted, C130_positions_needed)."
  },
  {
   "property": "C131",
   "status": "partial",
   "theorems": [
    "C131_write",
    "C131_decomposition",
    "C131_read",
    "C131_round_trip",
    "C131_h5",
    "C131_text_refuted",
    "C131_text_repaired",
    "C131_texture_single",
    "C131_texture_refuted"
   ],
   "note": "Binary files are right for every decomposition. The text writer writes one byte past its buffer (C131_text_refuted) and the texture file has only the points of rank 0 (C131_texture_refuted)."
  },
  {
   "property": "C132",
   "status": "partial",
   "theorems": [
    "C132_elastic",
    "C132_tensors",
    "C132_gas_refuted",
    "C132_direction",
    "C132_direction_repaired",
    "C132_direction_refuted",
    "C132_colours",
    "C132_colour_001",
    "C132_large_strain_refuted",
    "C132_cubic",
    "C132_corners",
    "C132_turns"
   ],
   "note": "Tensors are right at solid points. At gas points the mark -100 is turned into a von Mises strain of 200 (C132_gas_refuted). The colour uses angles in degrees as radians (C132_direction_refuted); in the large strain solvers its matrix is never a rotation (C132_large_strain_refuted)."
  },
  {
   "property": "C133",
   "status": "partial",
   "theorems": [
    "C133_surface_cube",
    "C133_surface_refuted",
    "C133_affine",
    "C133_no_drift",
    "C133_fixed_corners"
   ],
   "note": "The loaded nodes are the surface of the sample only when its three sides are equal: the test mixes the sides of different directions (C133_surface_refuted)."
  },
  {
   "property": "C134",
   "status": "partial",
   "theorems": [
    "C134_kept",
    "C134_mean_even",
    "C134_odd_refuted",
    "C134_range"
   ],
   "note": "Exact for even grids. On a grid with 2m+1 points in a direction the offset m is taken as m+1, so equal distances weigh differently the two ways round (C134_odd_refuted); the range holds for every grid."
  },
  {
   "property": "C135",
   "status": "partial",
   "theorems": [
    "C135_gradient",
    "C135_recovered",
    "C135_uniform",
    "C135_uniform_refuted",
    "C135_recovered_exact"
   ],
   "note": "Proved for odd grids (the largest frequency of an even grid is the pole of tan) of at most 15 million points (the cut at 1e-15 drops no frequency there). The weight of the mean takes the second side twice, so a uniform gradient is wrong when the second and third sides differ (C135_uniform_refuted)."
  },
  {
   "property": "C136",
   "status": "partial",
   "theorems": [
    "C136_ends",
    "C136_limit_refuted",
    "C136_stiffness",
    "C136_error",
    "C136_frame_law",
    "C136_neighbours",
    "C136_nodes_single",
    "C136_nodes_refuted",
    "C136_passes"
   ],
   "note": "One pass more than itmax_out is made (C136_limit_refuted), and in the rotated scheme every process but the first moves its nodes with the points of the first (C136_nodes_refuted)."
  },
  {
   "property": "C137",
   "status": "partial",
   "theorems": [
    "C137_network",
    "C137_set_up",
    "C137_range",
    "C137_bias_refuted",
    "C137_layers_refuted",
    "C137_wide_refuted",
    "C137_stress_refuted"
   ],
   "note": "The network is right without biases. A bias counts once per input (C137_bias_refuted), later layers use the biases of the first (C137_layers_refuted) and read past their end if they are wider (C137_wide_refuted), and the stress of the material is never written (C137_stress_refuted)."
  },
  {
   "property": "C138",
   "status": "partial",
   "theorems": [
    "C138_crossed",
    "C138_ray",
    "C138_extent",
    "C138_corrections",
    "C138_filled",
    "C138_voxel",
    "C138_file",
    "C138_flag_refuted",
    "C138_extent_refuted",
    "C138_cube_refuted",
    "C138_place_refuted"
   ],
   "note": "Rays through the insides of the facets are right in every direction (C138_voxel). A ray on an edge that two facets share crosses neither, so a unit cube has empty voxels on its diagonal (C138_cube_refuted); a flag read before it is set drops a crossing (C138_flag_refuted); the extent is missed if no facet has a single vertex there (C138_extent_refuted); the file places the voxels from zero (C138_place_refuted). The reading of the STL file is not modelled."
  },
  {
   "property": "C139",
   "status": "partial",
   "theorems": [
    "C139_forward",
    "C139_adjoint",
    "C139_stop_refuted",
    "C139_decrement_refuted",
    "C139_write_refuted",
    "C139_carried_refuted"
   ],
   "note": "Proved for runs that end at the final time, have no output on the way and carry nothing beside the checkpoint that matters (C139_adjoint); C139_forward needs none of this. False otherwise: a run stopped by its number of cycles goes back one cycle too many (C139_stop_refuted), an output on the way gives the second solution other time steps (C139_write_refuted), and what is carried beside the checkpoint is not put back (C139_carried_refuted). With one checkpoint an iterator is moved before the first element (C139_decrement_refuted)."
  },
  {
   "property": "C140",
   "status": "proved",
   "theorems": [
    "C140_order",
    "C140_flags",
    "C140_boundary",
    "C140_processes"
   ],
   "note": "Copies of a combination share their arrays in C++; here each has its own. One element type for the mesh."
  },
  {
   "property": "C141",
   "status": "partial",
   "theorems": [
    "C141_bounds",
    "C141_share",
    "C141_mean",
    "C141_smooth",
    "C141_volume",
    "C141_velocity",
    "C141_velocity_share",
    "C141_momentum",
    "C141_internal",
    "C141_smooth_refuted",
    "C141_internal_refuted"
   ],
   "note": "Bounds, mean and densities are proved. Two parts are false of the code and refuted: Venkatakrishnan's limiter changes fields that are among the averages (Barth and Jespersen's does not), and the velocity limiter can leave a point with more kinetic than total energy when the average velocity is not zero (proved when it is zero). Exact real arithmetic."
  },
  {
   "property": "C142",
   "status": "partial",
   "theorems": [
    "C142_filled",
    "C142_shared",
    "C142_box",
    "C142_cylinder",
    "C142_cylinder_partial",
    "C142_type",
    "C142_cylinder_refuted",
    "C142_turns_refuted"
   ],
   "note": "Numbering, sharing, types and the positions of a box are proved. Two parts are false of the code and refuted: the origin is added twice to the points of a cylinder (positions are proved about twice the origin, and as asked when the axis is at zero), and the check of the angle is made on radians. A cylinder within 1e-8 degrees of, but not at, a full turn is outside the theorems on positions. No overflow of int."
  }
 ]
}