{
 "claims": [
  {
   "property": "C01",
   "status": "proved",
   "theorems": [
    "C01_set_then_get",
    "C01_seti_then_geti",
    "C01_setd_then_get"
   ],
   "note": "par_setd/par_getd on the stored text; the decimal conversion of doubles is not modelled"
  },
  {
   "property": "C02",
   "status": "proved",
   "theorems": [
    "C02_others_untouched",
    "C02_never_duplicated"
   ],
   "note": ""
  },
  {
   "property": "C03",
   "status": "proved",
   "theorems": [
    "C03_default_sticks",
    "C03_default_int_sticks",
    "C03_default_double_sticks"
   ],
   "note": ""
  },
  {
   "property": "C04",
   "status": "proved",
   "theorems": [
    "C04_cmdline"
   ],
   "note": ""
  },
  {
   "property": "C05",
   "status": "proved",
   "theorems": [
    "C05_read_file",
    "C05_read_file_end",
    "C05_value_read",
    "C05_malformed_fatal",
    "C05_no_block_fatal",
    "C05_empty_value_with_comment_refuted"
   ],
   "note": "an empty value before a comment is excluded: the code mis-reads it when white space precedes '#' (refuted theorem)"
  },
  {
   "property": "C06",
   "status": "proved",
   "theorems": [
    "C06_dump_reopen",
    "C06_padding_refuted",
    "C06_empty_value_refuted"
   ],
   "note": "holds for databases whose dumped lines fit the line buffer and without empty value + comment; both restrictions shown necessary"
  },
  {
   "property": "C07",
   "status": "partial",
   "theorems": [
    "C07_line_in_bounds",
    "C07_file_in_bounds",
    "C07_in_bounds_refuted"
   ],
   "note": "false of the code for a line starting with '=' inside a block; exact characterisation proved"
  },
  {
   "property": "C08",
   "status": "proved",
   "theorems": [
    "C08_all_ranks_agree",
    "C08_overrun",
    "C08_overrun_reachable",
    "C08_empty_value_refuted"
   ],
   "note": "holds for databases whose rebuilt lines fit; the overrun and the empty-value case are shown"
  },
  {
   "property": "C09",
   "status": "proved",
   "theorems": [
    "C09_2d_array",
    "C09_3d_array",
    "C09_free_releases",
    "C09_no_rows_is_undefined"
   ],
   "note": "for at least one row/plane and a total size representable in size_t"
  },
  {
   "property": "C10",
   "status": "proved",
   "theorems": [
    "C10_name_fits_and_has_form",
    "C10_empty_path_refuted"
   ],
   "note": "for path NULL or non-empty; an empty path reads before the buffer (refuted theorem)"
  },
  {
   "property": "C11",
   "status": "partial",
   "theorems": [
    "C11_dumps_distinct",
    "C11_components_distinct",
    "C11_domains_distinct_partial",
    "C11_domains_distinct_refuted"
   ],
   "note": "dump numbers and name components: full. Domains of one dump: the stale pdom makes two Domains share a file when two levels have several Domains"
  },
  {
   "property": "C12",
   "status": "proved",
   "theorems": [
    "C12_messages_exact",
    "C12_opened_once_nothing_lost"
   ],
   "note": ""
  },
  {
   "property": "C13",
   "status": "partial",
   "theorems": [
    "C13_same_decision",
    "C13_nobody_left_waiting",
    "C13_request_before_call_stops_all",
    "C13_stop_has_cause",
    "C13_signal_during_call_refuted"
   ],
   "note": "all clauses hold for signals delivered between calls; a signal arriving while ath_sig_act runs can be overwritten (refuted theorem)"
  },
  {
   "property": "C14",
   "status": "partial",
   "theorems": [
    "C14_at_most_Nb_inside",
    "C14_successive_uses_refuted"
   ],
   "note": "proved for one use of the baton with any schedule; two uses in a row without a barrier can exceed Nb (refuted theorem)"
  },
  {
   "property": "C15",
   "status": "proved",
   "theorems": [
    "C15_no_deadlock",
    "C15_every_process_gets_its_turn"
   ],
   "note": "also for any number K of successive uses, and without relying on message buffering"
  },
  {
   "property": "C16",
   "status": "partial",
   "theorems": [
    "C16_never_beyond_limits",
    "C16_stops_at_limit",
    "C16_terminates",
    "C16_restart_overshoot_refuted"
   ],
   "note": "fresh runs: full, over exact arithmetic. Restarted runs can step over a lowered tlim (refuted theorem)"
  },
  {
   "property": "C17",
   "status": "proved",
   "theorems": [
    "C17_numbers_consecutive",
    "C17_written_exactly_when_due",
    "C17_none_skipped",
    "C17_forced_writes_all"
   ],
   "note": ""
  },
  {
   "property": "C18",
   "status": "partial",
   "theorems": [
    "C18_resumed_run_continues_schedule",
    "C18_lagging_block_refuted",
    "C18_rounded_time_refuted",
    "C18_killed_between_dumps_refuted"
   ],
   "note": "holds when stored times read back exactly and no block lags behind; each restriction is shown necessary"
  },
  {
   "property": "C19",
   "status": "partial",
   "theorems": [
    "C19_within_default_maxout_safe",
    "C19_overrun_iff",
    "C19_many_outputs_refuted"
   ],
   "note": "exact characterisation: the fixed-size array is overrun exactly with more than MAXOUT_DEFAULT blocks"
  },
  {
   "property": "C20",
   "status": "partial",
   "theorems": [
    "C20_hydro_cfl",
    "C20_mhd_cfl_partial",
    "C20_mhd_cfl_refuted"
   ],
   "note": "hydrodynamics: full. MHD: for non-negative fields (isothermal) or face fields equal to cell-centred fields; false in general (refuted theorem)"
  },
  {
   "property": "C21",
   "status": "proved",
   "theorems": [
    "C21_dt_limits",
    "C21_same_dt_everywhere",
    "C21_diffusion_limit"
   ],
   "note": ""
  },
  {
   "property": "C22",
   "status": "partial",
   "theorems": [
    "C22_particle_cfl_partial",
    "C22_particle_refuted"
   ],
   "note": "non-negative velocity components only: the code compares signed velocities (refuted theorem)"
  },
  {
   "property": "C23",
   "status": "proved",
   "theorems": [
    "C23_grids_tile_domain",
    "C23_sizes"
   ],
   "note": ""
  },
  {
   "property": "C24",
   "status": "proved",
   "theorems": [
    "C24_decomposition"
   ],
   "note": "the floating-point estimate of the ideal aspect ratio is an arbitrary integer function; int overflow is the outcome UB"
  },
  {
   "property": "C25",
   "status": "partial",
   "theorems": [
    "C25_same_level_apart",
    "C25_children_nested",
    "C25_child_without_parent_refuted"
   ],
   "note": "a refined Domain that lies in no coarser Domain is accepted (refuted theorem); the other clauses are proved"
  },
  {
   "property": "C26",
   "status": "proved",
   "theorems": [
    "C26_even_load",
    "C26_one_grid_per_domain",
    "C26_my_grid_found"
   ],
   "note": ""
  },
  {
   "property": "C27",
   "status": "partial",
   "theorems": [
    "C27_no_overflow",
    "C27_two_levels_partial",
    "C27_refuted"
   ],
   "note": "true between the root Domain and level 1; false on deeper levels, where a world ID is stored in place of a rank (refuted theorem)"
  },
  {
   "property": "C28",
   "status": "proved",
   "theorems": [
    "C28_neighbours",
    "C28_missing_at_edge"
   ],
   "note": "second theorem: Grids that are not empty along the axis"
  },
  {
   "property": "C29",
   "status": "proved",
   "theorems": [
    "C29_checkOverlap",
    "C29_checkOverlapTouch",
    "C29_empty_box_refuted"
   ],
   "note": "non-empty boxes; an empty box inside another one is reported as overlapping (refuted theorem)"
  },
  {
   "property": "C52",
   "status": "partial",
   "theorems": [
    "C52_every_grid_has_cells",
    "C52_ghost_zones_partial",
    "C52_ghost_zones_refuted",
    "C52_empty_grid_refuted"
   ],
   "note": "holds for automatic decomposition; explicit NGrid_x* can give Grids with no cells (refuted theorem)"
  },
  {
   "property": "C30",
   "status": "partial",
   "theorems": [
    "C30_positions",
    "C30_cell_contains_position",
    "C30_found_in_its_cell",
    "C30_inverse",
    "C30_left_of_array_refuted",
    "C30_global_positions",
    "C30_grids_agree",
    "C30_levels_agree",
    "C30_domain_extent",
    "C30_grid_edges"
   ],
   "note": "Proved for every position whose index is not left of cell 0 of the array; further left the code truncates towards zero and the property fails (refuted). Exact arithmetic over R."
  },
  {
   "property": "C31",
   "status": "proved",
   "theorems": [
    "C31_periodic",
    "C31_last_face",
    "C31_fully_periodic",
    "C31_active_unchanged"
   ],
   "note": "Grid without neighbours with at least nghost cells per used axis; the last normal face is not written by the code and is periodic if it was before (C31_last_face). With neighbours: C34."
  },
  {
   "property": "C32",
   "status": "proved",
   "theorems": [
    "C32_reflecting",
    "C32_boundary_face",
    "C32_conducting",
    "C31_active_unchanged",
    "C32_few_cells_refuted"
   ],
   "note": "needs nghost <= number of cells (refuted below that)"
  },
  {
   "property": "C33",
   "status": "proved",
   "theorems": [
    "C33_outflow",
    "C31_active_unchanged",
    "C33_normal_face_refuted"
   ],
   "note": "ghost values are those of the nearest active cell's element; for the normal face field at the right end that is not the nearest face (refuted theorem)"
  },
  {
   "property": "C34",
   "status": "proved",
   "theorems": [
    "C34_decomposition_invisible",
    "C34_completes",
    "C34_one_sided_periodic",
    "C34_mesh_divisions",
    "C34_small_grids_refuted"
   ],
   "note": "every division in which each Grid has more than one and at least nghost cells per divided axis, periodic at both ends or neither; the other cases are refuted (small Grids) or shown to wait for ever (one-sided periodic)"
  },
  {
   "property": "C53",
   "status": "proved",
   "theorems": [
    "C53_in_bounds"
   ],
   "note": ""
  },
  {
   "property": "C54",
   "status": "proved",
   "theorems": [
    "C54_message_length",
    "C54_same_count",
    "C54_buffer_size"
   ],
   "note": ""
  },
  {
   "property": "C35",
   "status": "proved",
   "theorems": [
    "C35_prim_cons_prim",
    "C35_cons_prim_cons",
    "C35_floor",
    "C35_cell_cons_prim_cons",
    "C35_cell_prim_cons_prim"
   ],
   "note": ""
  },
  {
   "property": "C36",
   "status": "proved",
   "theorems": [
    "C36_fast_speed",
    "C36_no_field",
    "C36_same_from_conserved",
    "C36_below_floor_refuted"
   ],
   "note": "states with pressure above the floor; below it the two functions differ (refuted theorem)"
  },
  {
   "property": "C38",
   "status": "proved",
   "theorems": [
    "C38_hlle",
    "C38_force",
    "C38_hllc",
    "C38_two_shock",
    "C38_roe",
    "C38_hlld",
    "C38_hlld_isothermal"
   ],
   "note": "FORCE: pressure at least the floor; isothermal HLLD: density at least d_MIN. The exact and the relativistic solvers are not modelled."
  },
  {
   "property": "C39",
   "status": "partial",
   "theorems": [
    "C39_hlle",
    "C39_force",
    "C39_roe",
    "C39_two_shock",
    "C39_hllc",
    "C39_hlld",
    "C39_hlld_isothermal",
    "C39_supersonic_right",
    "C39_supersonic_left",
    "C39_hllc_refuted"
   ],
   "note": "HLLC: adiabatic index at least 5/4; for 21/20 the contact speed can lie outside the wave fan and the flux has the wrong sign (refuted theorem). MHD with HLLE, FORCE, Roe: adiabatic index at most 2."
  },
  {
   "property": "C55",
   "status": "partial",
   "theorems": [
    "C39_hlle",
    "C39_force",
    "C39_roe",
    "C39_two_shock",
    "C39_hllc",
    "C39_hlld",
    "C39_hlld_isothermal",
    "C55_hllc_refuted",
    "C55_gamma_above_two_refuted"
   ],
   "note": "last clause of the C39 theorems (the result is not None); false for HLLC with an adiabatic index near 1 and for MHD Roe averages with an adiabatic index above 2 (refuted theorems)"
  },
  {
   "property": "C56",
   "status": "partial",
   "theorems": [
    "C56_roe_waves",
    "C56_roe_conservative",
    "C56_isolated_discontinuity",
    "C56_roe_mhd_refuted"
   ],
   "note": "All four eigensystems. Hydrodynamics, and MHD with equal densities or adiabatic index 2: proved. MHD with different densities: false (refuted theorem); C56_roe_waves gives the exact error, which comes from the factor Y in the eigensystem. Temperature above the floor, MHD adiabatic index at most 2, no H-correction."
  },
  {
   "property": "C57",
   "status": "proved",
   "theorems": [
    "C39_two_shock"
   ],
   "note": ""
  },
  {
   "property": "C37",
   "status": "partial",
   "theorems": [
    "C37_no_new_extrema",
    "C37_uniform",
    "C37_positive",
    "C37_divisors",
    "C37_limo3_partial",
    "C37_limo3_refuted"
   ],
   "note": "Proved for the first-order, both second-order, both third-order and the Koren schemes (van Leer integrator) and, for scalars, with characteristic tracing (C60). Refuted for LimO3, which is unlimited where the data vary little relative to the cell size."
  },
  {
   "property": "C58",
   "status": "proved",
   "theorems": [
    "C58_linear_exact",
    "C58_mirror"
   ],
   "note": ""
  },
  {
   "property": "C59",
   "status": "proved",
   "theorems": [
    "C59_iso_hydro",
    "C59_adb_hydro",
    "C59_iso_mhd",
    "C59_adb_mhd"
   ],
   "note": ""
  },
  {
   "property": "C60",
   "status": "partial",
   "theorems": [
    "C60_tracing_right_edge",
    "C60_tracing_left_edge",
    "C60_scalars_no_new_extrema",
    "C60_static_wave_refuted",
    "C60_prim3_scalars_refuted"
   ],
   "note": "Waves of exactly zero speed are counted twice with HLL-type fluxes (refuted), and lr_states_prim3.c uses the first scalar's slope for all scalars (refuted). Not covered: third-order tracing with HLL fluxes, cylindrical coordinates."
  },
  {
   "property": "C40",
   "status": "proved",
   "theorems": [
    "C40_periodic_1d",
    "C40_interior_1d",
    "C40_run_1d",
    "C40_periodic_2d",
    "C40_interior_2d",
    "C40_run_2d",
    "C40_refill_2d",
    "C40_periodic_3d",
    "C40_interior_3d",
    "C40_run_3d",
    "C40_refill_3d"
   ],
   "note": "One, two and three dimensions, both integrators, every configuration of the Cartesian code without FOFC, shearing box, particles and SMR corrections."
  },
  {
   "property": "C41",
   "status": "proved",
   "theorems": [
    "C41_divB_2d",
    "C41_centred_2d",
    "C41_run_2d",
    "C41_divB_3d",
    "C41_centred_3d",
    "C41_run_3d"
   ],
   "note": "Two and three dimensions, both integrators, any boundary conditions (in one dimension B1 is constant and nothing else enters)."
  },
  {
   "property": "C61",
   "status": "proved",
   "theorems": [
    "C61_local_1d",
    "C61_local_2d",
    "C61_local_3d",
    "lr_states_nearby"
   ],
   "note": "One, two and three dimensions, both integrators."
  },
  {
   "property": "C62",
   "status": "proved",
   "theorems": [
    "C62_energy_periodic_1d",
    "C62_energy_interior_1d",
    "C62_energy_run_1d",
    "C62_energy_periodic_2d",
    "C62_energy_interior_2d",
    "C62_energy_run_2d",
    "C62_energy_periodic_3d",
    "C62_energy_interior_3d",
    "C62_energy_run_3d"
   ],
   "note": "One, two and three dimensions, both integrators."
  },
  {
   "property": "C63",
   "status": "proved",
   "theorems": [
    "C63_uniform_1d",
    "C63_uniform_2d",
    "C63_uniform_3d"
   ],
   "note": "One, two and three dimensions, both integrators."
  },
  {
   "property": "C45",
   "status": "proved",
   "theorems": [
    "C45_gcd",
    "C45_gcd_signed",
    "C45_gcd_zero_refuted"
   ],
   "note": "a zero argument divides by zero (refuted theorem); the property is about positive arguments"
  },
  {
   "property": "C46",
   "status": "partial",
   "theorems": [
    "C46_bswap",
    "C46_twice",
    "C46_other_lengths",
    "C46_bswap_refuted"
   ],
   "note": "lengths 1, 2, 4 and 8; for any other length only the first element is reversed (refuted theorem)"
  },
  {
   "property": "C47",
   "status": "partial",
   "theorems": [
    "C47_bisection",
    "C47_root",
    "C47_converges",
    "C47_bisection_refuted",
    "C47_sign_change"
   ],
   "note": "what is returned is always within tolerance of a sign change; but the tolerance is relative to the midpoint, so a root at 0 can end in ath_error (refuted theorem)"
  },
  {
   "property": "C48",
   "status": "proved",
   "theorems": [
    "C48_minmax1",
    "C48_minmax2",
    "C48_minmax3"
   ],
   "note": ""
  },
  {
   "property": "C49",
   "status": "proved",
   "theorems": [
    "C49_cartesian",
    "C49_cylindrical",
    "C49_planar",
    "C49_grid"
   ],
   "note": "in two dimensions (dx3 not used by div B) the potentials A1, A2 must not depend on x3"
  },
  {
   "property": "C50",
   "status": "proved",
   "theorems": [
    "C50_solve",
    "C50_factors",
    "C50_inverse",
    "C50_mult"
   ],
   "note": ""
  },
  {
   "property": "C65",
   "status": "proved",
   "theorems": [
    "C65_div_b",
    "C65_div_b_cyl",
    "C65_zero"
   ],
   "note": ""
  },
  {
   "property": "C66",
   "status": "proved",
   "theorems": [
    "C66_simpson_exact",
    "C66_avg1d",
    "C66_avg2d",
    "C66_avg3d",
    "C66_avg3d_cyl"
   ],
   "note": ""
  },
  {
   "property": "C51",
   "status": "partial",
   "theorems": [
    "C51_sum_is_one",
    "C51_non_negative",
    "C51_polynomials",
    "C51_stencil",
    "C51_values",
    "C51_uniform",
    "C51_no_new_extrema",
    "C51_edge_refuted"
   ],
   "note": "Fully proved where the stencil lies within the array. Where it is cut at the lower edge, getvalues pairs the weights with the wrong cells (refuted theorem); uniform gas and the bounds hold there too."
  },
  {
   "property": "C64",
   "status": "proved",
   "theorems": [
    "C64_shuffle"
   ],
   "note": ""
  },
  {
   "property": "C67",
   "status": "proved",
   "theorems": [
    "C67_parabola"
   ],
   "note": ""
  },
  {
   "property": "C68",
   "status": "proved",
   "theorems": [
    "C68_momentum",
    "C68_dissipation"
   ],
   "note": "stencils within the Grid and its ghost zones; dissipation for linear and TSC weights"
  },
  {
   "property": "C69",
   "status": "proved",
   "theorems": [
    "C69_delete_ghost",
    "C69_integrate"
   ],
   "note": ""
  },
  {
   "property": "C70",
   "status": "proved",
   "theorems": [
    "C70_force",
    "C70_semi_implicit",
    "C70_fully_implicit",
    "C70_damping",
    "C70_explicit_refuted"
   ],
   "note": "implicit equations for stopping times that do not depend on the velocity (Epstein, fixed) and velocity-independent user forces, as the integrators assume; damping for all stopping times. The explicit integrator is unstable for long steps (refuted theorem)."
  },
  {
   "property": "C71",
   "status": "partial",
   "theorems": [
    "C71_marked",
    "C71_limits",
    "C71_outflow",
    "C71_x3_outflow_refuted"
   ],
   "note": "proved but for outflow boundaries along x3, where the lower limit has the wrong sign and active particles are marked (refuted theorem)"
  },
  {
   "property": "C72",
   "status": "proved",
   "theorems": [
    "C72_overlap",
    "C72_extents",
    "C72_even_split",
    "C72_paired",
    "C72_message",
    "C72_messageP",
    "C72_odd_grid_refuted"
   ],
   "note": "for Grids with even edges (given by C72_even_split when each Grid of the fine Domain has the same even number of cells); init_mesh does not check it and without it the message lengths differ (refuted theorem)"
  },
  {
   "property": "C42",
   "status": "proved",
   "theorems": [
    "C42_restrict",
    "C42_conserve",
    "C42_total",
    "C42_ct",
    "C42_divB",
    "C42_restricted_div",
    "C42_restricted_divfree",
    "C42_centred",
    "C42_undivided",
    "C42_one_cell_refuted",
    "C42_touch_twice_refuted"
   ],
   "note": "for overlaps that are not one coarse cell wide and that are closed (every boundary is corrected or on an edge of the parent Grid); C42_undivided derives closedness from the tables of init_grid when the fine Domain is one Grid. A one-cell-wide overlap misreads the message, and two fine Grids touching a parent Grid correct their common edge twice (refuted theorems)."
  },
  {
   "property": "C43",
   "status": "proved",
   "theorems": [
    "C43_total",
    "C43_average",
    "C43_energy",
    "C43_range",
    "C43_range3",
    "C43_energy_range",
    "C43_flux",
    "C43_div",
    "C43_centred",
    "C43_linear",
    "C43_energy_refuted",
    "C43_range3_refuted",
    "C43_pressure_refuted",
    "C43_zero_refuted",
    "C43_odd_refuted"
   ],
   "note": "for an even number of ghost cells, of the run of Prolongate with the message of the parent. Average and range hold of every variable but the energy, for which they hold of the internal energy (hydrodynamics, and MHD in 1D); in 3D the range is exceeded by at most half (C43_range3) and values can be negative (refuted theorem). The field on faces of the fine Grid is kept unless the first value is exactly zero (usable / C43_zero_refuted)."
  },
  {
   "property": "C73",
   "status": "proved",
   "theorems": [
    "C73_restrict",
    "C73_prolong",
    "C73_posted",
    "C73_data",
    "C73_send",
    "C73_sendP",
    "C73_sizes",
    "C73_requests",
    "C73_gz",
    "C73_requests_refuted",
    "C73_prolong_two_refuted"
   ],
   "note": "prolongation for at most one parent Grid on the same process (init_grid.c:280 says there are no more). The arrays of MPI requests are dimensioned with the number of child Grids but indexed by parent Grids in RestrictCorrect (sending) and Prolongate (receiving): C73_requests_refuted."
  },
  {
   "property": "C44",
   "status": "proved",
   "theorems": [
    "C44_round_trip",
    "C44_same_state",
    "C44_same_file",
    "C44_truncated",
    "C44_reopen",
    "C44_hangs_refuted"
   ],
   "note": "for every machine representation of Real, int, long and short that decodes what it encodes; parameters that do not contain <par_end>; NSCALARS <= 10^8; integers that fit their types. Centred fields are recomputed from the faces, so they are the same when they followed from the faces (C44_same_state). A file cut before its last label is never accepted (without particles); one without <par_end> makes restart_grids loop for ever (C44_hangs_refuted)."
  },
  {
   "property": "C74",
   "status": "proved",
   "theorems": [
    "C74_only_energy",
    "C74_local",
    "C74_energy_periodic"
   ],
   "note": ""
  },
  {
   "property": "C75",
   "status": "proved",
   "theorems": [
    "C75_hottest",
    "C75_coldest",
    "C75_uniform",
    "C75_isotropic",
    "C75_along_x1",
    "C75_along_x2",
    "C75_along_x3"
   ],
   "note": ""
  },
  {
   "property": "C76",
   "status": "partial",
   "theorems": [
    "C76_no_overshoot",
    "C76_dense_neighbour_refuted"
   ],
   "note": "proved when the neighbours' densities are at most rho times the cell's and (Gamma-1) CourNo (1+rho) is at most 4 (2 in 3D); the timestep ignores the density, and with a neighbour 100 times as dense a step of the code's own length makes the temperature negative (refuted theorem)"
  },
  {
   "property": "C77",
   "status": "proved",
   "theorems": [
    "C77_only_momentum_energy",
    "C77_local",
    "C77_periodic"
   ],
   "note": "no FARGO; the anisotropic part read with the members x1, x2, x3 (as written it does not compile)"
  },
  {
   "property": "C78",
   "status": "partial",
   "theorems": [
    "C78_galilean",
    "C78_both_refuted"
   ],
   "note": "proved when not both coefficients are positive; with both, the isotropic energy flux through x1-faces is overwritten (viscosity.c:446 assigns instead of adding) and the property fails (refuted theorem)"
  },
  {
   "property": "C79",
   "status": "proved",
   "theorems": [
    "C79_linear_flow",
    "C79_heating",
    "C79_linear_flow_field"
   ],
   "note": ""
  },
  {
   "property": "C80",
   "status": "proved",
   "theorems": [
    "C80_only_field_energy",
    "C80_flux",
    "C80_centred",
    "C80_local",
    "C80_uniform",
    "C80_periodic"
   ],
   "note": ""
  },
  {
   "property": "C81",
   "status": "proved",
   "theorems": [
    "C81_dissipates",
    "C81_timestep"
   ],
   "note": ""
  },
  {
   "property": "C82",
   "status": "proved",
   "theorems": [
    "C82_linear",
    "C82_hall",
    "C82_quadratic",
    "C82_joule"
   ],
   "note": ""
  },
  {
   "property": "C83",
   "status": "proved",
   "theorems": [
    "C83_sum",
    "C83_limits",
    "C83_stable",
    "C83_hall_refuted"
   ],
   "note": "C83_hall_refuted: EField_Hall divides eta_Hall by |B| in place, so later substeps use other diffusivities"
  },
  {
   "property": "C84",
   "status": "proved",
   "theorems": [
    "C84_bvals_particle",
    "C84_closed",
    "C84_periodic",
    "C84_after_move",
    "C84_reflect_x3_refuted",
    "C84_reflect_edge_refuted",
    "C84_buffer_refuted"
   ],
   "note": "refuted in three corners: reflect_ix3_particle mirrors at half the edge, a particle on a reflecting outer edge is lost, NBUF=0 overflows the send buffer; shearing-box boundaries are not modelled"
  },
  {
   "property": "C85",
   "status": "proved",
   "theorems": [
    "C85_history",
    "C85_average",
    "C85_one_writer",
    "C85_thickness_refuted",
    "C85_two_writers_refuted",
    "C85_overflow_refuted"
   ],
   "note": "refuted in three corners: dVol includes dx3 of a two-dimensional run while the volume does not, two processes write the file of a refined Domain whose first process is not 0, and 30 user columns overflow scal[] in the largest configuration; special relativity's columns are not modelled"
  },
  {
   "property": "C86",
   "status": "proved",
   "theorems": [
    "C86_volume",
    "C86_plane",
    "C86_line",
    "C86_point",
    "C86_grids_sound",
    "C86_dimensions",
    "C86_one_grid",
    "C86_thin_refuted"
   ],
   "note": "refuted for Grids of a three-dimensional run that are one cell thick along x3: OutData2 takes them for two-dimensional"
  },
  {
   "property": "C87",
   "status": "proved",
   "theorems": [
    "C87_statistics",
    "C87_average_deviation",
    "C87_average_deviation_refuted",
    "C87_several_domains_refuted",
    "C87_larger_domain_refuted",
    "C87_stale_sums_refuted"
   ],
   "note": "refuted in four corners: the average deviation is not summed over processes, processes other than the first return inside the loop over Domains, data[] keeps the size of the first Domain, the sums are not cleared between Domains"
  },
  {
   "property": "C88",
   "status": "proved",
   "theorems": [
    "C88_join",
    "C88_where",
    "C88_single_grid",
    "C88_thin_refuted",
    "C88_digits_refuted"
   ],
   "note": "refuted in two corners: a 3D run with Grids one cell thick along x2 writes DIMENSIONS n 1 1 and cannot be joined; Grids whose lower edges agree in the seven digits printed are joined as x1 neighbours"
  },
  {
   "property": "C89",
   "status": "partial",
   "theorems": [
    "C89_image",
    "C89_displacement",
    "C89_conserves",
    "C89_linear",
    "C89_whole",
    "C89_no_new_extrema",
    "C89_boost",
    "C89_boost_xz",
    "C89_B3_2d_refuted",
    "C89_backward_refuted",
    "C89_third_order_refuted",
    "C89_buffer",
    "C89_buffer_refuted"
   ],
   "note": "proved for qshear*Omega_0*time >= 0 and more rows per Grid than ghost zones; refuted: cell centred B3 in 2D is not carried, a negative shear reads rows outside the buffer, third order remap can make positive data negative, the message buffer is too small for step 9 when Grids are as thin as the ghost zones"
  },
  {
   "property": "C90",
   "status": "proved",
   "theorems": [
    "C90_edges_agree",
    "C90_sweep",
    "C90_vertical_flux"
   ],
   "note": "energy and passive scalar fluxes are not matched by the code and are not part of the property; two-dimensional integrators do not match fluxes at all"
  },
  {
   "property": "C91",
   "status": "proved",
   "theorems": [
    "C91_carried",
    "C91_conserves",
    "C91_exact",
    "C91_stops",
    "C91_divergence",
    "C91_uniform",
    "C91_B3_2d_refuted"
   ],
   "note": "refuted in one corner: in 2D the cell centred B3, from which the integrators set B3i again, is not carried. For nfghost <= rows per Grid"
  },
  {
   "property": "C92",
   "status": "proved",
   "theorems": [
    "C92_3d",
    "C92_unique",
    "C92_decomposition",
    "C92_2d",
    "C92_unique_2d",
    "C92_1d",
    "C92_1d_several_grids_refuted",
    "C92_1d_mean_refuted"
   ],
   "note": "with the transforms of fftsrc taken as exact discrete Fourier transforms. Refuted in one dimension for several Grids and for a grav_mean_rho other than the mean; C92_1d is the positive part"
  },
  {
   "property": "C93",
   "status": "proved",
   "theorems": [
    "C93_touches_1d",
    "C93_force_1d",
    "C93_momentum_1d",
    "C93_energy_1d",
    "C93_touches_2d",
    "C93_stress_2d",
    "C93_momentum_2d",
    "C93_energy_2d_drift",
    "C93_energy_2d_refuted",
    "C93_touches_3d",
    "C93_stress_3d",
    "C93_momentum_3d",
    "C93_energy_3d",
    "C93_potential_exists_1d",
    "C93_potential_exists_2d",
    "C93_potential_exists_3d"
   ],
   "note": "without star particles; composed with the modelled 1D, 2D and 3D integrators. The conservation of energy is refuted in two dimensions, where C93_energy_2d_drift gives the exact change"
  },
  {
   "property": "C94",
   "status": "partial",
   "theorems": [
    "C94_columns_partial",
    "C94_columns_refuted",
    "C94_columns_x3_refuted",
    "C94_rows",
    "C94_range",
    "C94_words_ghosts",
    "C94_words_partial",
    "C94_words_refuted"
   ],
   "note": "header and rows agree when Nx2 is not 2 and Nx3 is not 2 or 3 (C94_columns_partial, both dumps); the words of a row are separate when the largest index has no more digits than nmax (C94_words_partial). The rest is refuted by examples"
  },
  {
   "property": "C95",
   "status": "partial",
   "theorems": [
    "C95_head",
    "C95_coordinates",
    "C95_values",
    "C95_length_partial",
    "C95_length_refuted"
   ],
   "note": "the encodings of int and Real are any functions to 4 and 8 bytes. C95_length_partial: without particles or with particles put out; the remaining case is refuted"
  },
  {
   "property": "C96",
   "status": "partial",
   "theorems": [
    "C96_pgm_partial",
    "C96_pgm_autoscale",
    "C96_shade_monotone",
    "C96_pgm_refuted",
    "C96_ppm",
    "C96_ppm_flat",
    "C96_extremes_partial",
    "C96_extremes_tab_partial",
    "C96_extremes_huge_refuted",
    "C96_extremes_tab_refuted"
   ],
   "note": "over the reals (the code computes colours in float). Gray images with a given scale: for values within 2^23 lengths of the scale from its lower end, refuted beyond. Extremes: for data within 10^20 (images, 1D tables) or one Grid per output (2D and 3D tables), refuted otherwise"
  },
  {
   "property": "C97",
   "status": "proved",
   "theorems": [
    "C97_active_unchanged",
    "C97_ghost_zones",
    "C97_determined",
    "C97_open_exact",
    "C97_open_two_cells_refuted",
    "C97_completes",
    "C97_decomposition",
    "C97_message_length",
    "C97_buffer_size",
    "C97_one_sided_periodic_refuted",
    "C97_flags"
   ],
   "note": "values of an arbitrary type, so bit for bit, except C97_open_exact (over the reals); not modelled: shearing box, Domains inside the root Domain (their ghost zones are not set here), enrolled boundary functions"
  },
  {
   "property": "C98",
   "status": "proved",
   "theorems": [
    "C98_potential",
    "C98_old_and_ghosts",
    "C98_decomposition",
    "C98_translation",
    "C98_poisson",
    "C98_isolated_refuted"
   ],
   "note": "over the reals; the Fourier transform is taken as the discrete Fourier transform; no star particles; the 2D solver (razor-thin disk) is not modelled"
  },
  {
   "property": "C99",
   "status": "proved",
   "theorems": [
    "C99_1d",
    "C99_image",
    "C99_3d",
    "C99_3d_poisson",
    "C99_decomposition"
   ],
   "note": "over the reals; the Fourier transform is taken as the discrete Fourier transform; no shearing box, no star particles; the 2D solver is not modelled. For modes that vary in the plane the weight exp(-kL) is that of the continuous equation, so the potential is the open one only up to the error of the discretisation; the theorem states what is computed"
  },
  {
   "property": "C100",
   "status": "proved",
   "theorems": [
    "C100_active",
    "C100_ghosts",
    "C100_completes",
    "C100_rest",
    "C100_conserved",
    "C100_conserved_periodic",
    "C100_message",
    "C100_buffer",
    "C100_mirror_1d_refuted",
    "C100_small_grid_refuted"
   ],
   "note": "over the reals. The predictor step needs Grids of at least nghost+1 cells (false otherwise for ghost zones: C100_small_grid_refuted), deposits at most one cell beyond the Grid (what its particles do), and, with reflecting x1, two or more dimensions (C100_mirror_1d_refuted); boundaries periodic on both sides or none; not modelled: shearing box, enrolled boundary functions, mesh refinement"
  },
  {
   "property": "C101",
   "status": "proved",
   "theorems": [
    "C101_fan_is_a_solution",
    "C101_between",
    "C101_one_flux",
    "C101_exact",
    "C101_between_accuracy",
    "C101_completes",
    "C101_consistent",
    "C101_thin_gas_refuted"
   ],
   "note": "over the reals. With a shock and a rarefaction the flux is shown exact if the iteration returns the exact density, and the density and velocity are bounded otherwise; the bound on the density is absolute, so for thin gas it says nothing and the result is wrong (C101_thin_gas_refuted); not modelled: the adiabatic solver, rounding"
  },
  {
   "property": "C102",
   "status": "partial",
   "theorems": [
    "C102_edges",
    "C102_potential",
    "C102_jacobi_solves",
    "C102_jacobi_error",
    "C102_negative",
    "C102_recursion",
    "C102_one_result",
    "C102_cycle_partial",
    "C102_selfg_partial",
    "C102_recursion_refuted",
    "C102_cycle_refuted",
    "C102_selfg_refuted"
   ],
   "note": "over the reals. The ghost zones, existence and uniqueness of the solution, convergence of the iteration and the exact condition for the recursion to end are proved in full; that a call does not spoil the potential is proved when a size is 4 and is false with one coarser level (C102_selfg_refuted); several coarser levels: only termination and the ghost zones"
  },
  {
   "property": "C103",
   "status": "partial",
   "theorems": [
    "C103_curve_positive",
    "C103_curve_joins",
    "C103_derivative",
    "C103_cells",
    "C103_bounds",
    "C103_equilibrium",
    "C103_one_domain_partial",
    "C103_domains_refuted"
   ],
   "note": "over the reals, without scalars (with them the file does not compile) and without SUB_CYCLE and SIMPSON. For one Domain proved in full; that all Domains of a Mesh are cooled for the same time is false (C103_domains_refuted)"
  },
  {
   "property": "C104",
   "status": "proved",
   "theorems": [
    "C104_schrage",
    "C104_sequence",
    "C104_repeats",
    "C104_large_seed_refuted",
    "C104_positive_seed_refuted"
   ],
   "note": "for seeds from -2147483562 to 0; refuted for seeds far below (undefined behaviour) and for positive seeds (the same first number for all). Length of the period and statistical quality are not stated"
  },
  {
   "property": "C105",
   "status": "partial",
   "theorems": [
    "C105_serial",
    "C105_mean",
    "C105_parallel_partial",
    "C105_scalars_refuted",
    "C105_writers_refuted"
   ],
   "note": "over the reals, with MHD and an energy equation. In full for one process; with several: the first process's line without scalars is right (C105_parallel_partial), the scalars and the number of writers are wrong (refuted)"
  },
  {
   "property": "C106",
   "status": "proved",
   "theorems": [
    "C106_runge_kutta",
    "C106_order",
    "C106_step",
    "C106_odeint",
    "C106_polynomial",
    "C106_ends",
    "C106_empty",
    "C106_store_refuted"
   ],
   "note": "over the reals. Refuted for kmax > 0 (storing intermediate results), which odeint_lite does not use. Order is Butcher's: the conditions for all rooted trees; the theorem that they bound the error of smooth solutions is not formalised"
  },
  {
   "property": "C107",
   "status": "partial",
   "theorems": [
    "C107_volume",
    "C107_plane",
    "C107_files",
    "C107_works",
    "C107_line",
    "C107_other_planes_refuted",
    "C107_ghost_refuted"
   ],
   "note": "proved for volumes, planes across x3 and two-dimensional runs without ghost cells; refuted for planes across x1 and x2 and for files with ghost cells. Rounding to float and to six digits, and the name of the file, are not in the model"
  },
  {
   "property": "C108",
   "status": "proved",
   "theorems": [
    "C108_sum",
    "C108_moments",
    "C108_mass",
    "C108_order",
    "C108_velocity",
    "C108_list"
   ],
   "note": "over the reals, for particles whose stencil lies in the Grid and its ghost zones, before ghost zones are exchanged (C100 is about the exchange); velocities for the linear and TSC schemes (QP has negative weights). init_id and the other numbers of the header are not in the model"
  },
  {
   "property": "C109",
   "status": "partial",
   "theorems": [
    "C109_scalars",
    "C109_kind",
    "C109_empty",
    "C109_processes",
    "C109_enroll",
    "C109_var_refuted",
    "C109_large_refuted"
   ],
   "note": "over the reals, for kinds in range. Two parts are false of the code: the columns headed var hold the standard deviation, not the variance (C109_var_refuted; C109_kind says what they hold); and for Domains of 2^31 cells or more the count of cells overflows int (C109_large_refuted shows it for 2048 x 1024 x 1024; C109_scalars assumes fewer)"
  },
  {
   "property": "C110",
   "status": "partial",
   "theorems": [
    "C110_volume",
    "C110_plane",
    "C110_line",
    "C110_files",
    "C110_range",
    "C110_index_refuted"
   ],
   "note": "values over the reals; digits printed are not in the model. False of the code for more than 2^24 + 1 cells along an axis: indices go through float, so different cells get equal indices (C110_index_refuted; the other theorems assume at most 2^24). The first file of a plane or volume starts the range anew for every Grid (C96)"
  }
 ]
}