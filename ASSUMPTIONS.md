# What `Print Assumptions` lists for each theorem

Written by `tools/assumptions.py`. All axioms are of Coq's standard library:

* A1: `ClassicalDedekindReals.sig_forall_dec`
* A2: `ClassicalDedekindReals.sig_not_dec`
* A3: `Classical_Prop.classic`
* A4: `FunctionalExtensionality.functional_extensionality_dep`

| Property | Theorem | File | Axioms |
|---|---|---|---|
| C01 | `C01_set_then_get` | `ParProps.v` | closed under the global context |
| C01 | `C01_seti_then_geti` | `ParProps.v` | closed under the global context |
| C01 | `C01_setd_then_get` | `ParProps.v` | closed under the global context |
| C02 | `C02_others_untouched` | `ParProps.v` | closed under the global context |
| C02 | `C02_never_duplicated` | `ParProps.v` | closed under the global context |
| C03 | `C03_default_sticks` | `ParProps.v` | closed under the global context |
| C03 | `C03_default_int_sticks` | `ParProps.v` | closed under the global context |
| C03 | `C03_default_double_sticks` | `ParProps.v` | closed under the global context |
| C04 | `C04_cmdline` | `ParProps.v` | closed under the global context |
| C05 | `C05_read_file` | `ParProps.v` | closed under the global context |
| C05 | `C05_read_file_end` | `ParProps.v` | closed under the global context |
| C05 | `C05_value_read` | `ParProps.v` | closed under the global context |
| C05 | `C05_malformed_fatal` | `ParProps.v` | closed under the global context |
| C05 | `C05_no_block_fatal` | `ParProps.v` | closed under the global context |
| C05 | `C05_empty_value_with_comment_refuted` | `ParProps.v` | closed under the global context |
| C06 | `C06_dump_reopen` | `ParProps.v` | closed under the global context |
| C06 | `C06_padding_refuted` | `ParProps.v` | closed under the global context |
| C06 | `C06_empty_value_refuted` | `ParProps.v` | closed under the global context |
| C07 | `C07_line_in_bounds` | `ParProps.v` | closed under the global context |
| C07 | `C07_file_in_bounds` | `ParProps.v` | closed under the global context |
| C07 | `C07_in_bounds_refuted` | `ParProps.v` | closed under the global context |
| C08 | `C08_all_ranks_agree` | `ParProps.v` | closed under the global context |
| C08 | `C08_overrun` | `ParProps.v` | closed under the global context |
| C08 | `C08_overrun_reachable` | `ParProps.v` | closed under the global context |
| C08 | `C08_empty_value_refuted` | `ParProps.v` | closed under the global context |
| C09 | `C09_2d_array` | `ArrProps.v` | closed under the global context |
| C09 | `C09_3d_array` | `ArrProps.v` | closed under the global context |
| C09 | `C09_free_releases` | `ArrProps.v` | closed under the global context |
| C09 | `C09_no_rows_is_undefined` | `ArrProps.v` | closed under the global context |
| C10 | `C10_name_fits_and_has_form` | `FnameProps.v` | closed under the global context |
| C10 | `C10_empty_path_refuted` | `FnameProps.v` | closed under the global context |
| C11 | `C11_dumps_distinct` | `FnameProps.v` | closed under the global context |
| C11 | `C11_components_distinct` | `FnameProps.v` | closed under the global context |
| C11 | `C11_domains_distinct_partial` | `FnameProps.v` | closed under the global context |
| C11 | `C11_domains_distinct_refuted` | `FnameProps.v` | closed under the global context |
| C12 | `C12_messages_exact` | `LogProps.v` | closed under the global context |
| C12 | `C12_opened_once_nothing_lost` | `LogProps.v` | closed under the global context |
| C13 | `C13_same_decision` | `SigProps.v` | closed under the global context |
| C13 | `C13_nobody_left_waiting` | `SigProps.v` | closed under the global context |
| C13 | `C13_request_before_call_stops_all` | `SigProps.v` | closed under the global context |
| C13 | `C13_stop_has_cause` | `SigProps.v` | closed under the global context |
| C13 | `C13_signal_during_call_refuted` | `SigProps.v` | closed under the global context |
| C14 | `C14_at_most_Nb_inside` | `BatonProps.v` | closed under the global context |
| C14 | `C14_successive_uses_refuted` | `BatonProps.v` | closed under the global context |
| C15 | `C15_no_deadlock` | `BatonProps.v` | closed under the global context |
| C15 | `C15_every_process_gets_its_turn` | `BatonProps.v` | closed under the global context |
| C16 | `C16_never_beyond_limits` | `DtProps.v` | A1, A4 |
| C16 | `C16_stops_at_limit` | `DtProps.v` | A1, A4 |
| C16 | `C16_terminates` | `DtProps.v` | A1, A4 |
| C16 | `C16_restart_overshoot_refuted` | `DtProps.v` | A1, A4 |
| C17 | `C17_numbers_consecutive` | `OutProps.v` | A1, A4 |
| C17 | `C17_written_exactly_when_due` | `OutProps.v` | A1, A4 |
| C17 | `C17_none_skipped` | `OutProps.v` | A1, A4 |
| C17 | `C17_forced_writes_all` | `OutProps.v` | A1, A4 |
| C18 | `C18_resumed_run_continues_schedule` | `OutProps.v` | A1, A4 |
| C18 | `C18_lagging_block_refuted` | `OutProps.v` | A1, A4 |
| C18 | `C18_rounded_time_refuted` | `OutProps.v` | A1, A4 |
| C18 | `C18_killed_between_dumps_refuted` | `OutProps.v` | A1, A4 |
| C19 | `C19_within_default_maxout_safe` | `OutProps.v` | A1, A4 |
| C19 | `C19_overrun_iff` | `OutProps.v` | A1, A4 |
| C19 | `C19_many_outputs_refuted` | `OutProps.v` | A1, A4 |
| C20 | `C20_hydro_cfl` | `DtProps.v` | A1, A2, A4 |
| C20 | `C20_mhd_cfl_partial` | `DtProps.v` | A1, A2, A4 |
| C20 | `C20_mhd_cfl_refuted` | `DtProps.v` | A1, A2, A4 |
| C21 | `C21_dt_limits` | `DtProps.v` | A1, A2, A4 |
| C21 | `C21_same_dt_everywhere` | `DtProps.v` | A1, A2, A4 |
| C21 | `C21_diffusion_limit` | `DtProps.v` | A1, A2, A4 |
| C22 | `C22_particle_cfl_partial` | `DtProps.v` | A1, A2, A4 |
| C22 | `C22_particle_refuted` | `DtProps.v` | A1, A2, A4 |
| C23 | `C23_grids_tile_domain` | `MeshProps.v` | closed under the global context |
| C23 | `C23_sizes` | `MeshProps.v` | closed under the global context |
| C24 | `C24_decomposition` | `MeshProps.v` | closed under the global context |
| C25 | `C25_same_level_apart` | `MeshProps.v` | closed under the global context |
| C25 | `C25_children_nested` | `MeshProps.v` | closed under the global context |
| C25 | `C25_child_without_parent_refuted` | `MeshProps.v` | closed under the global context |
| C26 | `C26_even_load` | `MeshProps.v` | closed under the global context |
| C26 | `C26_one_grid_per_domain` | `MeshProps.v` | closed under the global context |
| C26 | `C26_my_grid_found` | `MeshProps.v` | closed under the global context |
| C27 | `C27_no_overflow` | `MeshProps.v` | closed under the global context |
| C27 | `C27_two_levels_partial` | `MeshProps.v` | closed under the global context |
| C27 | `C27_refuted` | `MeshProps.v` | closed under the global context |
| C28 | `C28_neighbours` | `MeshProps.v` | closed under the global context |
| C28 | `C28_missing_at_edge` | `MeshProps.v` | closed under the global context |
| C29 | `C29_checkOverlap` | `MeshProps.v` | closed under the global context |
| C29 | `C29_checkOverlapTouch` | `MeshProps.v` | closed under the global context |
| C29 | `C29_empty_box_refuted` | `MeshProps.v` | closed under the global context |
| C52 | `C52_every_grid_has_cells` | `MeshProps.v` | closed under the global context |
| C52 | `C52_ghost_zones_partial` | `MeshProps.v` | closed under the global context |
| C52 | `C52_ghost_zones_refuted` | `MeshProps.v` | closed under the global context |
| C52 | `C52_empty_grid_refuted` | `MeshProps.v` | closed under the global context |
| C30 | `C30_positions` | `PosProps.v` | A1, A4 |
| C30 | `C30_cell_contains_position` | `PosProps.v` | A1, A4 |
| C30 | `C30_found_in_its_cell` | `PosProps.v` | A1, A4 |
| C30 | `C30_inverse` | `PosProps.v` | A1, A4 |
| C30 | `C30_left_of_array_refuted` | `PosProps.v` | A1, A4 |
| C30 | `C30_global_positions` | `PosProps.v` | A1, A4 |
| C30 | `C30_grids_agree` | `PosProps.v` | A1, A4 |
| C30 | `C30_levels_agree` | `PosProps.v` | A1, A4 |
| C30 | `C30_domain_extent` | `PosProps.v` | A1, A4 |
| C30 | `C30_grid_edges` | `PosProps.v` | A1, A4 |
| C31 | `C31_periodic` | `BvalsProps.v` | closed under the global context |
| C31 | `C31_last_face` | `BvalsProps.v` | closed under the global context |
| C31 | `C31_fully_periodic` | `BvalsProps.v` | closed under the global context |
| C31 | `C31_active_unchanged` | `BvalsProps.v` | closed under the global context |
| C32 | `C32_reflecting` | `BvalsProps.v` | closed under the global context |
| C32 | `C32_boundary_face` | `BvalsProps.v` | closed under the global context |
| C32 | `C32_conducting` | `BvalsProps.v` | closed under the global context |
| C32 | `C31_active_unchanged` | `BvalsProps.v` | closed under the global context |
| C32 | `C32_few_cells_refuted` | `BvalsProps.v` | closed under the global context |
| C33 | `C33_outflow` | `BvalsProps.v` | closed under the global context |
| C33 | `C31_active_unchanged` | `BvalsProps.v` | closed under the global context |
| C33 | `C33_normal_face_refuted` | `BvalsProps.v` | closed under the global context |
| C34 | `C34_decomposition_invisible` | `BvalsParProps.v` | closed under the global context |
| C34 | `C34_completes` | `BvalsParProps.v` | closed under the global context |
| C34 | `C34_one_sided_periodic` | `BvalsParProps.v` | closed under the global context |
| C34 | `C34_mesh_divisions` | `BvalsParProps.v` | closed under the global context |
| C34 | `C34_small_grids_refuted` | `BvalsParProps.v` | closed under the global context |
| C53 | `C53_in_bounds` | `BvalsProps.v` | closed under the global context |
| C54 | `C54_message_length` | `BvalsLenProps.v` | closed under the global context |
| C54 | `C54_same_count` | `BvalsLenProps.v` | closed under the global context |
| C54 | `C54_buffer_size` | `BvalsLenProps.v` | closed under the global context |
| C35 | `C35_prim_cons_prim` | `ConvProps.v` | A1, A4 |
| C35 | `C35_cons_prim_cons` | `ConvProps.v` | A1, A4 |
| C35 | `C35_floor` | `ConvProps.v` | A1, A4 |
| C35 | `C35_cell_cons_prim_cons` | `ConvProps.v` | A1, A4 |
| C35 | `C35_cell_prim_cons_prim` | `ConvProps.v` | A1, A4 |
| C36 | `C36_fast_speed` | `ConvProps.v` | A1, A2, A4 |
| C36 | `C36_no_field` | `ConvProps.v` | A1, A2, A4 |
| C36 | `C36_same_from_conserved` | `ConvProps.v` | A1, A2, A4 |
| C36 | `C36_below_floor_refuted` | `ConvProps.v` | A1, A2, A4 |
| C38 | `C38_hlle` | `FluxProps.v` | A1, A2, A4 |
| C38 | `C38_force` | `FluxProps.v` | A1, A2, A4 |
| C38 | `C38_hllc` | `FluxProps.v` | A1, A2, A4 |
| C38 | `C38_two_shock` | `FluxProps.v` | A1, A2, A4 |
| C38 | `C38_roe` | `FluxProps2.v` | A1, A2, A4 |
| C38 | `C38_hlld` | `FluxProps2.v` | A1, A2, A4 |
| C38 | `C38_hlld_isothermal` | `FluxProps2.v` | A1, A2, A4 |
| C39 | `C39_hlle` | `FluxUpwind.v` | A1, A2, A4 |
| C39 | `C39_force` | `FluxUpwind.v` | A1, A2, A4 |
| C39 | `C39_roe` | `FluxUpwind.v` | A1, A2, A4 |
| C39 | `C39_two_shock` | `FluxUpwind.v` | A1, A2, A4 |
| C39 | `C39_hllc` | `FluxUpwind2.v` | A1, A2, A4 |
| C39 | `C39_hlld` | `FluxUpwind4.v` | A1, A2, A4 |
| C39 | `C39_hlld_isothermal` | `FluxUpwind4.v` | A1, A2, A4 |
| C39 | `C39_supersonic_right` | `FluxUpwind3.v` | A1, A2, A4 |
| C39 | `C39_supersonic_left` | `FluxUpwind3.v` | A1, A2, A4 |
| C39 | `C39_hllc_refuted` | `FluxUpwind3.v` | A1, A2, A4 |
| C55 | `C39_hlle` | `FluxUpwind.v` | A1, A2, A4 |
| C55 | `C39_force` | `FluxUpwind.v` | A1, A2, A4 |
| C55 | `C39_roe` | `FluxUpwind.v` | A1, A2, A4 |
| C55 | `C39_two_shock` | `FluxUpwind.v` | A1, A2, A4 |
| C55 | `C39_hllc` | `FluxUpwind2.v` | A1, A2, A4 |
| C55 | `C39_hlld` | `FluxUpwind4.v` | A1, A2, A4 |
| C55 | `C39_hlld_isothermal` | `FluxUpwind4.v` | A1, A2, A4 |
| C55 | `C55_hllc_refuted` | `FluxUpwind3.v` | A1, A2, A4 |
| C55 | `C55_gamma_above_two_refuted` | `FluxUpwind3.v` | A1, A2, A4 |
| C56 | `C56_roe_waves` | `RoeProps.v` | A1, A2, A4 |
| C56 | `C56_roe_conservative` | `RoeProps.v` | A1, A2, A4 |
| C56 | `C56_isolated_discontinuity` | `RoeProps.v` | A1, A2, A4 |
| C56 | `C56_roe_mhd_refuted` | `RoeProps.v` | A1, A2, A4 |
| C57 | `C39_two_shock` | `FluxUpwind.v` | A1, A2, A4 |
| C37 | `C37_no_new_extrema` | `ReconProps.v` | A1, A4 |
| C37 | `C37_uniform` | `ReconProps.v` | A1, A4 |
| C37 | `C37_positive` | `ReconProps.v` | A1, A4 |
| C37 | `C37_divisors` | `ReconProps.v` | A1, A4 |
| C37 | `C37_limo3_partial` | `ReconProps.v` | A1, A4 |
| C37 | `C37_limo3_refuted` | `ReconProps.v` | A1, A4 |
| C58 | `C58_linear_exact` | `ReconProps.v` | A1, A4 |
| C58 | `C58_mirror` | `ReconProps.v` | A1, A4 |
| C59 | `C59_iso_hydro` | `EsysPrimProps.v` | A1, A4 |
| C59 | `C59_adb_hydro` | `EsysPrimProps.v` | A1, A2, A4 |
| C59 | `C59_iso_mhd` | `EsysPrimProps2.v` | A1, A2, A4 |
| C59 | `C59_adb_mhd` | `EsysPrimProps2.v` | A1, A2, A4 |
| C60 | `C60_tracing_right_edge` | `ReconCtu.v` | A1, A4 |
| C60 | `C60_tracing_left_edge` | `ReconCtu.v` | A1, A4 |
| C60 | `C60_scalars_no_new_extrema` | `ReconCtu.v` | A1, A4 |
| C60 | `C60_static_wave_refuted` | `ReconCtu.v` | A1, A2, A4 |
| C60 | `C60_prim3_scalars_refuted` | `ReconCtu.v` | A1, A4 |
| C40 | `C40_periodic_1d` | `Integ1Props.v` | A1, A4 |
| C40 | `C40_interior_1d` | `Integ1Props.v` | A1, A4 |
| C40 | `C40_run_1d` | `Integ1Props.v` | A1, A2, A4 |
| C40 | `C40_periodic_2d` | `Integ2Props.v` | A1, A4 |
| C40 | `C40_interior_2d` | `Integ2Props.v` | A1, A4 |
| C40 | `C40_run_2d` | `Integ2Props.v` | A1, A2, A4 |
| C40 | `C40_refill_2d` | `Integ2Props.v` | A1, A4 |
| C40 | `C40_periodic_3d` | `Integ3Props.v` | A1, A4 |
| C40 | `C40_interior_3d` | `Integ3Props.v` | A1, A4 |
| C40 | `C40_run_3d` | `Integ3Run.v` | A1, A2, A4 |
| C40 | `C40_refill_3d` | `Integ3Run.v` | A1, A4 |
| C41 | `C41_divB_2d` | `Integ2Props.v` | A1, A4 |
| C41 | `C41_centred_2d` | `Integ2Props.v` | A1, A4 |
| C41 | `C41_run_2d` | `Integ2Props.v` | A1, A4 |
| C41 | `C41_divB_3d` | `Integ3Props.v` | A1, A4 |
| C41 | `C41_centred_3d` | `Integ3Props.v` | A1, A4 |
| C41 | `C41_run_3d` | `Integ3Run.v` | A1, A4 |
| C61 | `C61_local_1d` | `Integ1Props.v` | A1, A4 |
| C61 | `C61_local_2d` | `Integ2Props.v` | A1, A4 |
| C61 | `C61_local_3d` | `Integ3Props.v` | A1, A4 |
| C61 | `lr_states_nearby` | `SchemeNearby.v` | A1, A2, A4 |
| C62 | `C62_energy_periodic_1d` | `Integ1Props.v` | A1, A4 |
| C62 | `C62_energy_interior_1d` | `Integ1Props.v` | A1, A4 |
| C62 | `C62_energy_run_1d` | `Integ1Props.v` | A1, A2, A4 |
| C62 | `C62_energy_periodic_2d` | `Integ2Props.v` | A1, A4 |
| C62 | `C62_energy_interior_2d` | `Integ2Props.v` | A1, A4 |
| C62 | `C62_energy_run_2d` | `Integ2Props.v` | A1, A2, A4 |
| C62 | `C62_energy_periodic_3d` | `Integ3Props.v` | A1, A4 |
| C62 | `C62_energy_interior_3d` | `Integ3Props.v` | A1, A4 |
| C62 | `C62_energy_run_3d` | `Integ3Run.v` | A1, A2, A4 |
| C63 | `C63_uniform_1d` | `Integ1Props.v` | A1, A4 |
| C63 | `C63_uniform_2d` | `Integ2Props.v` | A1, A4 |
| C63 | `C63_uniform_3d` | `Integ3Props.v` | A1, A4 |
| C45 | `C45_gcd` | `UtilProps.v` | closed under the global context |
| C45 | `C45_gcd_signed` | `UtilProps.v` | closed under the global context |
| C45 | `C45_gcd_zero_refuted` | `UtilProps.v` | closed under the global context |
| C46 | `C46_bswap` | `UtilProps.v` | closed under the global context |
| C46 | `C46_twice` | `UtilProps.v` | closed under the global context |
| C46 | `C46_other_lengths` | `UtilProps.v` | closed under the global context |
| C46 | `C46_bswap_refuted` | `UtilProps.v` | closed under the global context |
| C47 | `C47_bisection` | `UtilProps2.v` | A1, A4 |
| C47 | `C47_root` | `UtilProps2.v` | A1, A2, A4 |
| C47 | `C47_converges` | `UtilProps2.v` | A1, A4 |
| C47 | `C47_bisection_refuted` | `UtilProps2.v` | A1, A4 |
| C47 | `C47_sign_change` | `UtilProps2.v` | A1, A4 |
| C48 | `C48_minmax1` | `UtilProps.v` | A1, A4 |
| C48 | `C48_minmax2` | `UtilProps.v` | A1, A4 |
| C48 | `C48_minmax3` | `UtilProps.v` | A1, A4 |
| C49 | `C49_cartesian` | `UtilProps4.v` | A1, A4 |
| C49 | `C49_cylindrical` | `UtilProps4.v` | A1, A4 |
| C49 | `C49_planar` | `UtilProps4.v` | A1, A4 |
| C49 | `C49_grid` | `UtilProps4.v` | A1, A4 |
| C50 | `C50_solve` | `LuProps.v` | A1, A4 |
| C50 | `C50_factors` | `LuProps.v` | A1, A4 |
| C50 | `C50_inverse` | `LuProps.v` | A1, A4 |
| C50 | `C50_mult` | `LuProps.v` | A1 |
| C65 | `C65_div_b` | `UtilProps2.v` | A1, A4 |
| C65 | `C65_div_b_cyl` | `UtilProps2.v` | A1, A4 |
| C65 | `C65_zero` | `UtilProps2.v` | A1, A4 |
| C66 | `C66_simpson_exact` | `UtilProps3.v` | A1, A2, A3, A4 |
| C66 | `C66_avg1d` | `UtilProps3.v` | A1, A4 |
| C66 | `C66_avg2d` | `UtilProps3.v` | A1, A4 |
| C66 | `C66_avg3d` | `UtilProps3.v` | A1, A4 |
| C66 | `C66_avg3d_cyl` | `UtilProps3.v` | A1, A4 |
| C51 | `C51_sum_is_one` | `PartProps.v` | A1, A4 |
| C51 | `C51_non_negative` | `PartProps.v` | A1, A4 |
| C51 | `C51_polynomials` | `PartProps.v` | A1, A4 |
| C51 | `C51_stencil` | `PartProps.v` | A1, A4 |
| C51 | `C51_values` | `PartProps.v` | A1, A4 |
| C51 | `C51_uniform` | `PartProps.v` | A1, A4 |
| C51 | `C51_no_new_extrema` | `PartProps.v` | A1, A4 |
| C51 | `C51_edge_refuted` | `PartProps.v` | A1, A4 |
| C64 | `C64_shuffle` | `PartSort.v` | A1, A4 |
| C67 | `C67_parabola` | `ReconThird.v` | A1, A4 |
| C68 | `C68_momentum` | `PartDrag.v` | A1, A2, A3, A4 |
| C68 | `C68_dissipation` | `PartDrag.v` | A1, A4 |
| C69 | `C69_delete_ghost` | `PartSort.v` | closed under the global context |
| C69 | `C69_integrate` | `PartDrag.v` | A1, A2, A3, A4 |
| C70 | `C70_force` | `PartDrag.v` | A1, A4 |
| C70 | `C70_semi_implicit` | `PartDrag.v` | A1, A2, A3, A4 |
| C70 | `C70_fully_implicit` | `PartDrag.v` | A1, A2, A3, A4 |
| C70 | `C70_damping` | `PartDrag.v` | A1, A2, A3, A4 |
| C70 | `C70_explicit_refuted` | `PartDrag.v` | A1, A2, A3, A4 |
| C71 | `C71_marked` | `PartDrag.v` | A1, A4 |
| C71 | `C71_limits` | `PartDrag.v` | A1, A4 |
| C71 | `C71_outflow` | `PartDrag.v` | A1, A4 |
| C71 | `C71_x3_outflow_refuted` | `PartDrag.v` | A1, A4 |
| C72 | `C72_overlap` | `SmrOverlap.v` | closed under the global context |
| C72 | `C72_extents` | `SmrOverlap.v` | closed under the global context |
| C72 | `C72_even_split` | `SmrOverlap.v` | closed under the global context |
| C72 | `C72_paired` | `SmrPaired.v` | closed under the global context |
| C72 | `C72_message` | `SmrPaired.v` | A1, A4 |
| C72 | `C72_messageP` | `ProMsg.v` | closed under the global context |
| C72 | `C72_odd_grid_refuted` | `SmrOverlap.v` | closed under the global context |
| C42 | `C42_restrict` | `SmrMore.v` | A1, A4 |
| C42 | `C42_conserve` | `SmrTheorems.v` | A1, A4 |
| C42 | `C42_total` | `SmrTheorems.v` | A1, A4 |
| C42 | `C42_ct` | `SmrCT.v` | A1, A4 |
| C42 | `C42_divB` | `SmrCT.v` | A1, A4 |
| C42 | `C42_restricted_div` | `SmrCT.v` | A1, A4 |
| C42 | `C42_restricted_divfree` | `SmrCT.v` | A1, A4 |
| C42 | `C42_centred` | `SmrMore.v` | A1, A4 |
| C42 | `C42_undivided` | `SmrMore.v` | closed under the global context |
| C42 | `C42_one_cell_refuted` | `SmrMore.v` | A1, A4 |
| C42 | `C42_touch_twice_refuted` | `SmrMore.v` | A1, A4 |
| C43 | `C43_total` | `ProTheorems.v` | A1, A4 |
| C43 | `C43_average` | `ProTheorems.v` | A1, A4 |
| C43 | `C43_energy` | `ProTheorems.v` | A1, A4 |
| C43 | `C43_range` | `ProTheorems.v` | A1, A4 |
| C43 | `C43_range3` | `ProTheorems.v` | A1, A4 |
| C43 | `C43_energy_range` | `ProTheorems.v` | A1, A4 |
| C43 | `C43_flux` | `ProTheorems.v` | A1, A4 |
| C43 | `C43_div` | `ProTheorems.v` | A1, A4 |
| C43 | `C43_centred` | `ProTheorems.v` | A1, A4 |
| C43 | `C43_linear` | `ProMore.v` | A1, A4 |
| C43 | `C43_energy_refuted` | `ProMore.v` | A1, A4 |
| C43 | `C43_range3_refuted` | `ProMore.v` | A1, A4 |
| C43 | `C43_pressure_refuted` | `ProMore.v` | A1, A4 |
| C43 | `C43_zero_refuted` | `ProMore.v` | A1, A4 |
| C43 | `C43_odd_refuted` | `ProMore.v` | A1, A4 |
| C73 | `C73_restrict` | `SmrBufProps.v` | closed under the global context |
| C73 | `C73_prolong` | `SmrBufProps.v` | closed under the global context |
| C73 | `C73_posted` | `SmrBufProps.v` | closed under the global context |
| C73 | `C73_data` | `SmrBufProps.v` | closed under the global context |
| C73 | `C73_send` | `SmrBufProps.v` | closed under the global context |
| C73 | `C73_sendP` | `SmrBufProps.v` | closed under the global context |
| C73 | `C73_sizes` | `SmrBufProps.v` | closed under the global context |
| C73 | `C73_requests` | `SmrBufProps.v` | closed under the global context |
| C73 | `C73_gz` | `ProMore.v` | closed under the global context |
| C73 | `C73_requests_refuted` | `SmrBufProps.v` | closed under the global context |
| C73 | `C73_prolong_two_refuted` | `SmrBufProps.v` | closed under the global context |
| C44 | `C44_round_trip` | `ResProps.v` | closed under the global context |
| C44 | `C44_same_state` | `ResProps.v` | closed under the global context |
| C44 | `C44_same_file` | `ResProps.v` | closed under the global context |
| C44 | `C44_truncated` | `ResProps.v` | closed under the global context |
| C44 | `C44_reopen` | `ResMore.v` | closed under the global context |
| C44 | `C44_hangs_refuted` | `ResMore.v` | closed under the global context |
| C74 | `C74_only_energy` | `CondProps.v` | A1, A4 |
| C74 | `C74_local` | `CondProps.v` | A1, A4 |
| C74 | `C74_energy_periodic` | `CondProps.v` | A1, A4 |
| C75 | `C75_hottest` | `CondHeat.v` | A1, A4 |
| C75 | `C75_coldest` | `CondHeat.v` | A1, A4 |
| C75 | `C75_uniform` | `CondHeat.v` | A1, A4 |
| C75 | `C75_isotropic` | `CondRate.v` | A1, A4 |
| C75 | `C75_along_x1` | `CondRate.v` | A1, A4 |
| C75 | `C75_along_x2` | `CondRate.v` | A1, A4 |
| C75 | `C75_along_x3` | `CondRate.v` | A1, A4 |
| C76 | `C76_no_overshoot` | `CondMax.v` | A1, A4 |
| C76 | `C76_dense_neighbour_refuted` | `CondRate.v` | A1, A4 |
| C77 | `C77_only_momentum_energy` | `ViscProps.v` | A1, A4 |
| C77 | `C77_local` | `ViscProps.v` | A1, A4 |
| C77 | `C77_periodic` | `ViscProps.v` | A1, A4 |
| C78 | `C78_galilean` | `ViscFlow.v` | A1, A4 |
| C78 | `C78_both_refuted` | `ViscFlow.v` | A1, A4 |
| C79 | `C79_linear_flow` | `ViscHeat.v` | A1, A4 |
| C79 | `C79_heating` | `ViscHeat.v` | A1, A4 |
| C79 | `C79_linear_flow_field` | `ViscHeat.v` | A1, A4 |
| C80 | `C80_only_field_energy` | `OhmProps.v` | A1, A2, A4 |
| C80 | `C80_flux` | `OhmProps.v` | A1, A2, A4 |
| C80 | `C80_centred` | `OhmProps.v` | A1, A2, A4 |
| C80 | `C80_local` | `OhmCons.v` | A1, A2, A4 |
| C80 | `C80_uniform` | `OhmUniform.v` | A1, A2, A4 |
| C80 | `C80_periodic` | `OhmCons.v` | A1, A2, A4 |
| C81 | `C81_dissipates` | `OhmHeat.v` | A1, A2, A4 |
| C81 | `C81_timestep` | `OhmHeat.v` | A1, A2, A4 |
| C82 | `C82_linear` | `OhmExact.v` | A1, A2, A4 |
| C82 | `C82_hall` | `OhmExact.v` | A1, A2, A4 |
| C82 | `C82_quadratic` | `OhmExact.v` | A1, A2, A4 |
| C82 | `C82_joule` | `OhmExact.v` | A1, A2, A4 |
| C83 | `C83_sum` | `StsProps.v` | A1, A2, A4 |
| C83 | `C83_limits` | `StsProps.v` | A1, A4 |
| C83 | `C83_stable` | `StsProps.v` | A1, A2, A3, A4 |
| C83 | `C83_hall_refuted` | `StsHall.v` | A1, A2, A3, A4 |
| C84 | `C84_bvals_particle` | `PbcProps.v` | A1, A4 |
| C84 | `C84_closed` | `PbcProps.v` | A1, A4 |
| C84 | `C84_periodic` | `PbcProps.v` | A1, A4 |
| C84 | `C84_after_move` | `PbcProps.v` | A1, A4 |
| C84 | `C84_reflect_x3_refuted` | `PbcProps.v` | A1, A4 |
| C84 | `C84_reflect_edge_refuted` | `PbcProps.v` | A1, A4 |
| C84 | `C84_buffer_refuted` | `PbcProps.v` | A1, A4 |
| C85 | `C85_history` | `HistProps.v` | A1, A4 |
| C85 | `C85_average` | `HistProps.v` | A1, A4 |
| C85 | `C85_one_writer` | `HistProps.v` | closed under the global context |
| C85 | `C85_thickness_refuted` | `HistProps.v` | A1, A4 |
| C85 | `C85_two_writers_refuted` | `HistProps.v` | A1, A4 |
| C85 | `C85_overflow_refuted` | `HistProps.v` | A1, A4 |
| C86 | `C86_volume` | `SliceProps.v` | A1 |
| C86 | `C86_plane` | `SliceProps.v` | A1, A4 |
| C86 | `C86_line` | `SliceProps.v` | A1, A4 |
| C86 | `C86_point` | `SliceProps.v` | A1, A4 |
| C86 | `C86_grids_sound` | `SliceProps.v` | A1, A4 |
| C86 | `C86_dimensions` | `SliceProps.v` | closed under the global context |
| C86 | `C86_one_grid` | `SliceProps.v` | A1, A4 |
| C86 | `C86_thin_refuted` | `SliceProps.v` | A1, A4 |
| C87 | `C87_statistics` | `PdfProps.v` | A1, A2, A4 |
| C87 | `C87_average_deviation` | `PdfProps.v` | A1, A2, A4 |
| C87 | `C87_average_deviation_refuted` | `PdfProps.v` | A1, A2, A4 |
| C87 | `C87_several_domains_refuted` | `PdfProps.v` | A1, A2, A4 |
| C87 | `C87_larger_domain_refuted` | `PdfProps.v` | A1, A2, A4 |
| C87 | `C87_stale_sums_refuted` | `PdfProps.v` | A1, A2, A4 |
| C88 | `C88_join` | `VtkProps.v` | A1, A4 |
| C88 | `C88_where` | `VtkProps.v` | A1 |
| C88 | `C88_single_grid` | `VtkProps.v` | A1, A4 |
| C88 | `C88_thin_refuted` | `VtkProps.v` | A1, A4 |
| C88 | `C88_digits_refuted` | `VtkProps.v` | A1, A4 |
| C89 | `C89_image` | `ShearProps.v` | A1, A4 |
| C89 | `C89_displacement` | `ShearProps.v` | A1, A4 |
| C89 | `C89_conserves` | `ShearProps.v` | A1, A4 |
| C89 | `C89_linear` | `ShearProps.v` | A1, A4 |
| C89 | `C89_whole` | `ShearProps.v` | A1, A4 |
| C89 | `C89_no_new_extrema` | `ShearProps.v` | A1, A4 |
| C89 | `C89_boost` | `ShearProps.v` | A1, A4 |
| C89 | `C89_boost_xz` | `ShearProps.v` | A1, A4 |
| C89 | `C89_B3_2d_refuted` | `ShearProps.v` | A1, A4 |
| C89 | `C89_backward_refuted` | `ShearProps.v` | A1, A4 |
| C89 | `C89_third_order_refuted` | `ShearProps.v` | A1, A4 |
| C89 | `C89_buffer` | `ShearProps.v` | closed under the global context |
| C89 | `C89_buffer_refuted` | `ShearProps.v` | closed under the global context |
| C90 | `C90_edges_agree` | `ShearFlux.v` | A1, A4 |
| C90 | `C90_sweep` | `ShearFlux.v` | A1, A4 |
| C90 | `C90_vertical_flux` | `ShearFlux.v` | A1, A4 |
| C91 | `C91_carried` | `FargoProps.v` | A1, A4 |
| C91 | `C91_conserves` | `FargoProps.v` | A1, A4 |
| C91 | `C91_exact` | `FargoProps.v` | A1, A4 |
| C91 | `C91_stops` | `FargoProps.v` | A1, A4 |
| C91 | `C91_divergence` | `FargoProps.v` | A1, A4 |
| C91 | `C91_uniform` | `FargoProps.v` | A1, A4 |
| C91 | `C91_B3_2d_refuted` | `FargoProps.v` | A1, A4 |
| C92 | `C92_3d` | `GravProps.v` | A1, A2, A4 |
| C92 | `C92_unique` | `GravProps.v` | A1, A2, A4 |
| C92 | `C92_decomposition` | `GravProps.v` | A1, A2, A4 |
| C92 | `C92_2d` | `GravProps.v` | A1, A2, A4 |
| C92 | `C92_unique_2d` | `GravProps.v` | A1, A2, A4 |
| C92 | `C92_1d` | `GravProps.v` | A1, A4 |
| C92 | `C92_1d_several_grids_refuted` | `GravProps.v` | A1, A4 |
| C92 | `C92_1d_mean_refuted` | `GravProps.v` | A1, A4 |
| C93 | `C93_touches_1d` | `Selfg1Props.v` | A1, A4 |
| C93 | `C93_force_1d` | `Selfg1Props.v` | A1, A4 |
| C93 | `C93_momentum_1d` | `Selfg1Props.v` | A1, A4 |
| C93 | `C93_energy_1d` | `Selfg1Props.v` | A1, A4 |
| C93 | `C93_touches_2d` | `Selfg2Props.v` | A1, A4 |
| C93 | `C93_stress_2d` | `Selfg2Props.v` | A1, A4 |
| C93 | `C93_momentum_2d` | `Selfg2Props.v` | A1, A4 |
| C93 | `C93_energy_2d_drift` | `Selfg2Props.v` | A1, A4 |
| C93 | `C93_energy_2d_refuted` | `SelfgExamples.v` | A1, A4 |
| C93 | `C93_touches_3d` | `Selfg3Props.v` | A1, A4 |
| C93 | `C93_stress_3d` | `Selfg3Props.v` | A1, A4 |
| C93 | `C93_momentum_3d` | `Selfg3Total.v` | A1, A4 |
| C93 | `C93_energy_3d` | `Selfg3Total.v` | A1, A4 |
| C93 | `C93_potential_exists_1d` | `SelfgExists.v` | A1, A2, A4 |
| C93 | `C93_potential_exists_2d` | `SelfgExists.v` | A1, A2, A4 |
| C93 | `C93_potential_exists_3d` | `SelfgExists.v` | A1, A2, A4 |
| C94 | `C94_columns_partial` | `DumpProps.v` | A1, A4 |
| C94 | `C94_columns_refuted` | `DumpProps.v` | A1, A4 |
| C94 | `C94_columns_x3_refuted` | `DumpProps.v` | A1, A4 |
| C94 | `C94_rows` | `DumpProps.v` | A1, A4 |
| C94 | `C94_range` | `DumpProps.v` | closed under the global context |
| C94 | `C94_words_ghosts` | `DumpProps.v` | A1, A2, A3, A4 |
| C94 | `C94_words_partial` | `DumpProps.v` | A1, A2, A3, A4 |
| C94 | `C94_words_refuted` | `DumpProps.v` | A1, A2, A3, A4 |
| C95 | `C95_head` | `BinProps.v` | A1, A4 |
| C95 | `C95_coordinates` | `BinProps.v` | A1, A4 |
| C95 | `C95_values` | `BinProps.v` | A1, A4 |
| C95 | `C95_length_partial` | `BinProps.v` | A1, A4 |
| C95 | `C95_length_refuted` | `BinProps.v` | A1, A4 |
| C96 | `C96_pgm_partial` | `ImageProps.v` | A1, A4 |
| C96 | `C96_pgm_autoscale` | `ImageProps.v` | A1, A4 |
| C96 | `C96_shade_monotone` | `ImageProps.v` | A1, A4 |
| C96 | `C96_pgm_refuted` | `ImageProps.v` | A1, A4 |
| C96 | `C96_ppm` | `ImageProps.v` | A1, A4 |
| C96 | `C96_ppm_flat` | `ImageProps.v` | A1, A4 |
| C96 | `C96_extremes_partial` | `ImageProps.v` | A1, A4 |
| C96 | `C96_extremes_tab_partial` | `ImageProps.v` | A1, A4 |
| C96 | `C96_extremes_huge_refuted` | `ImageProps.v` | A1, A4 |
| C96 | `C96_extremes_tab_refuted` | `ImageProps.v` | A1, A4 |
| C97 | `C97_active_unchanged` | `PhiProps3.v` | closed under the global context |
| C97 | `C97_ghost_zones` | `PhiProps3.v` | closed under the global context |
| C97 | `C97_determined` | `PhiProps3.v` | closed under the global context |
| C97 | `C97_open_exact` | `PhiProps3.v` | A1, A4 |
| C97 | `C97_open_two_cells_refuted` | `PhiProps3.v` | A1, A4 |
| C97 | `C97_completes` | `PhiProps3.v` | closed under the global context |
| C97 | `C97_decomposition` | `PhiProps3.v` | closed under the global context |
| C97 | `C97_message_length` | `PhiProps3.v` | closed under the global context |
| C97 | `C97_buffer_size` | `PhiProps3.v` | closed under the global context |
| C97 | `C97_one_sided_periodic_refuted` | `PhiProps3.v` | closed under the global context |
| C97 | `C97_flags` | `PhiProps3.v` | closed under the global context |
| C98 | `C98_potential` | `ObcProps.v` | A1, A2, A4 |
| C98 | `C98_old_and_ghosts` | `ObcProps.v` | A1, A2, A4 |
| C98 | `C98_decomposition` | `ObcProps.v` | A1, A2, A4 |
| C98 | `C98_translation` | `ObcProps.v` | A1, A2, A4 |
| C98 | `C98_poisson` | `ObcProps.v` | A1, A2, A4 |
| C98 | `C98_isolated_refuted` | `ObcProps.v` | A1, A2, A4 |
| C99 | `C99_1d` | `DiskFacts.v` | A1, A4 |
| C99 | `C99_image` | `DiskProps.v` | A1, A2, A4 |
| C99 | `C99_3d` | `DiskProps.v` | A1, A2, A4 |
| C99 | `C99_3d_poisson` | `DiskProps.v` | A1, A2, A4 |
| C99 | `C99_decomposition` | `DiskProps.v` | A1, A2, A4 |
| C100 | `C100_active` | `ExchProps.v` | A1, A4 |
| C100 | `C100_ghosts` | `ExchProps.v` | A1, A4 |
| C100 | `C100_completes` | `ExchProps.v` | A1, A4 |
| C100 | `C100_rest` | `ExchProps.v` | A1 |
| C100 | `C100_conserved` | `ExchProps.v` | A1, A4 |
| C100 | `C100_conserved_periodic` | `ExchProps.v` | A1, A4 |
| C100 | `C100_message` | `ExchProps.v` | closed under the global context |
| C100 | `C100_buffer` | `ExchProps.v` | closed under the global context |
| C100 | `C100_mirror_1d_refuted` | `ExchProps.v` | A1 |
| C100 | `C100_small_grid_refuted` | `ExchProps.v` | A1, A4 |
| C101 | `C101_fan_is_a_solution` | `ExactProps.v` | A1, A2, A3, A4 |
| C101 | `C101_between` | `ExactProps.v` | A1, A2, A3, A4 |
| C101 | `C101_one_flux` | `ExactProps.v` | A1, A2, A3, A4 |
| C101 | `C101_exact` | `ExactProps.v` | A1, A2, A3, A4 |
| C101 | `C101_between_accuracy` | `ExactProps.v` | A1, A2, A3, A4 |
| C101 | `C101_completes` | `ExactProps.v` | A1, A2, A3, A4 |
| C101 | `C101_consistent` | `ExactProps.v` | A1, A2, A3, A4 |
| C101 | `C101_thin_gas_refuted` | `ExactProps.v` | A1, A2, A3, A4 |
| C102 | `C102_edges` | `MgProps.v` | A1, A2, A4 |
| C102 | `C102_potential` | `MgProps.v` | A1, A2, A4 |
| C102 | `C102_jacobi_solves` | `MgProps.v` | A1, A2, A4 |
| C102 | `C102_jacobi_error` | `MgProps.v` | A1, A4 |
| C102 | `C102_negative` | `MgProps.v` | A1, A4 |
| C102 | `C102_recursion` | `MgProps.v` | A1, A4 |
| C102 | `C102_one_result` | `MgProps.v` | A1, A4 |
| C102 | `C102_cycle_partial` | `MgProps.v` | A1, A4 |
| C102 | `C102_selfg_partial` | `MgProps.v` | A1, A2, A4 |
| C102 | `C102_recursion_refuted` | `MgProps.v` | A1, A4 |
| C102 | `C102_cycle_refuted` | `MgProps.v` | A1, A4 |
| C102 | `C102_selfg_refuted` | `MgProps.v` | A1, A2, A4 |
| C103 | `C103_curve_positive` | `CoolProps.v` | A1, A2, A3, A4 |
| C103 | `C103_curve_joins` | `CoolProps.v` | A1, A2, A3, A4 |
| C103 | `C103_derivative` | `CoolProps.v` | A1, A2, A3, A4 |
| C103 | `C103_cells` | `CoolProps.v` | A1, A2, A3, A4 |
| C103 | `C103_bounds` | `CoolProps.v` | A1, A2, A3, A4 |
| C103 | `C103_equilibrium` | `CoolProps.v` | A1, A2, A3, A4 |
| C103 | `C103_one_domain_partial` | `CoolProps.v` | A1, A2, A3, A4 |
| C103 | `C103_domains_refuted` | `CoolProps.v` | A1, A2, A3, A4 |
| C104 | `C104_schrage` | `RanProps.v` | closed under the global context |
| C104 | `C104_sequence` | `RanProps.v` | A1, A4 |
| C104 | `C104_repeats` | `RanProps.v` | A1, A4 |
| C104 | `C104_large_seed_refuted` | `RanProps.v` | A1, A4 |
| C104 | `C104_positive_seed_refuted` | `RanProps.v` | A1, A4 |
| C105 | `C105_serial` | `L1Props.v` | A1, A2, A4 |
| C105 | `C105_mean` | `L1Props.v` | A1, A4 |
| C105 | `C105_parallel_partial` | `L1Props.v` | A1, A2, A4 |
| C105 | `C105_scalars_refuted` | `L1Props.v` | A1, A2, A4 |
| C105 | `C105_writers_refuted` | `L1Props.v` | A1, A2, A4 |
| C106 | `C106_runge_kutta` | `OdeProps.v` | A1, A4 |
| C106 | `C106_order` | `OdeProps.v` | A1, A4 |
| C106 | `C106_step` | `OdeProps.v` | A1, A2, A3, A4 |
| C106 | `C106_odeint` | `OdeProps.v` | A1, A2, A3, A4 |
| C106 | `C106_polynomial` | `OdeProps.v` | A1, A2, A3, A4 |
| C106 | `C106_ends` | `OdeProps.v` | A1, A2, A3, A4 |
| C106 | `C106_empty` | `OdeProps.v` | A1, A2, A3, A4 |
| C106 | `C106_store_refuted` | `OdeProps.v` | A1, A2, A3, A4 |
| C107 | `C107_volume` | `VtkOneProps.v` | A1, A4 |
| C107 | `C107_plane` | `VtkOneProps.v` | A1, A4 |
| C107 | `C107_files` | `VtkOneProps.v` | A1, A4 |
| C107 | `C107_works` | `VtkOneProps.v` | A1, A4 |
| C107 | `C107_line` | `VtkOneProps.v` | A1, A4 |
| C107 | `C107_other_planes_refuted` | `VtkOneProps.v` | A1, A4 |
| C107 | `C107_ghost_refuted` | `VtkOneProps.v` | A1, A4 |
| C108 | `C108_sum` | `PBinProps.v` | A1, A4 |
| C108 | `C108_moments` | `PBinProps.v` | A1, A4 |
| C108 | `C108_mass` | `PBinProps.v` | A1, A4 |
| C108 | `C108_order` | `PBinProps.v` | A1, A4 |
| C108 | `C108_velocity` | `PBinProps.v` | A1, A4 |
| C108 | `C108_list` | `PBinProps.v` | A1, A4 |
| C109 | `C109_scalars` | `PHistProps.v` | A1, A4 |
| C109 | `C109_kind` | `PHistProps.v` | A1, A2, A4 |
| C109 | `C109_empty` | `PHistProps.v` | A1, A2, A4 |
| C109 | `C109_processes` | `PHistProps.v` | A1, A2, A4 |
| C109 | `C109_enroll` | `PHistProps.v` | closed under the global context |
| C109 | `C109_var_refuted` | `PHistProps.v` | A1, A2, A4 |
| C109 | `C109_large_refuted` | `PHistProps.v` | A1, A4 |
| C110 | `C110_volume` | `TabOneProps.v` | A1, A4 |
| C110 | `C110_plane` | `TabOneProps.v` | A1, A4 |
| C110 | `C110_line` | `TabOneProps.v` | A1, A4 |
| C110 | `C110_files` | `TabMeshProps.v` | A1, A4 |
| C110 | `C110_range` | `TabOneProps.v` | A1, A4 |
| C110 | `C110_index_refuted` | `TabOneProps.v` | A1, A4 |
