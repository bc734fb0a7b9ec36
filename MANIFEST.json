{
 "claims": [
  {
   "property": "C10",
   "status": "proved",
   "theorems": [
    "C10_reading_is_sum_over_threads",
    "C10_schedule_independent",
    "C10_reading_order_exact"
   ],
   "note": "Each call is atomic; exact arithmetic for the first two, any arithmetic with 0+0=0 for the third."
  },
  {
   "property": "C11",
   "status": "proved",
   "theorems": [
    "C11_unsynced_read_refused",
    "C11_add_makes_reads_raise",
    "C11_sync_idempotent"
   ],
   "note": ""
  },
  {
   "property": "C12",
   "status": "partial",
   "theorems": [
    "C12_permanent_forces_persist_refuted",
    "C12_permanent_forces_persist_partial"
   ],
   "note": "False in general: setting a permanent force on a low id shrinks the arrays and drops those of ids 100 or more above. Proved when all permanent ids lie within a window of 100."
  },
  {
   "property": "C13",
   "status": "proved",
   "theorems": [
    "C13_reset_clears_step_sums_only",
    "C13_resetAll_clears_everything"
   ],
   "note": ""
  },
  {
   "property": "C43",
   "status": "partial",
   "theorems": [
    "C43_unsynced_read_agrees_refuted",
    "C43_unsynced_read_agrees_partial",
    "C43_unsynced_read_after_sync_partial"
   ],
   "note": "False in general: out-of-range read of the permanent array. Proved without permanent values, and right after a sync."
  },
  {
   "property": "C19",
   "status": "proved",
   "theorems": [
    "C19_substeps_equal_step",
    "C19_substeps_equal_steps",
    "C19_mixed_mode"
   ],
   "note": "Engines are arbitrary state transformers."
  },
  {
   "property": "C20",
   "status": "partial",
   "theorems": [
    "C20_engine_change_mid_step_refuted",
    "C20_empty_engine_list_refuted",
    "C20_engine_change_at_boundary_partial",
    "C20_dead_engines_do_not_run"
   ],
   "note": "False when the list is changed while sub-stepping or set to an empty list; proved for non-empty changes at step boundaries."
  },
  {
   "property": "C44",
   "status": "proved",
   "theorems": [
    "C44_exception_keeps_clock",
    "C44_retry_after_exception",
    "C44_substep_exception_retries_item"
   ],
   "note": ""
  },
  {
   "property": "C21",
   "status": "proved",
   "theorems": [
    "C21_run_n_is_exactly_n_steps",
    "C21_run_never_blocks"
   ],
   "note": "For every interleaving of the caller and the background thread; steps that raise are excluded."
  },
  {
   "property": "C22",
   "status": "partial",
   "theorems": [
    "C22_steps_never_overlap_refuted",
    "C22_steps_never_overlap_partial",
    "C22_background_steps_exclusive_partial"
   ],
   "note": "False for O.pause() followed by O.step(); proved for background steps among themselves, and for all histories without pause."
  },
  {
   "property": "C45",
   "status": "partial",
   "theorems": [
    "C45_run_after_pause_refuted",
    "C45_run_after_pause_partial"
   ],
   "note": "False: a pending stop request ends the new run at once. Proved once earlier background threads have ended."
  },
  {
   "property": "C46",
   "status": "partial",
   "theorems": [
    "C46_reload_while_running_refuted",
    "C46_reload_while_running_partial"
   ],
   "note": "False if the background thread has not yet locked its mutex. Proved when it has."
  },
  {
   "property": "C01",
   "status": "partial",
   "theorems": [
    "C01_body_ids_stable_partial",
    "C01_append_returns_length",
    "C01_body_ids_stable_refuted"
   ],
   "note": "False: O.bodies.insertAtId of a body that is already in the container makes two ids share one body. Proved for all histories whose inserted bodies are not in the container."
  },
  {
   "property": "C02",
   "status": "partial",
   "theorems": [
    "C02_clumps_consistent_partial",
    "C02_erase_effect",
    "C02_clump_effect",
    "C02_addToClump_effect",
    "C02_release_effect",
    "C02_clumps_consistent_refuted"
   ],
   "note": "False after addToClump with a clump (or a member of another clump) as argument: the absorbed members are released when the old clump is erased. Proved for all other histories, with the exact effect of each call."
  },
  {
   "property": "C03",
   "status": "proved",
   "theorems": [
    "C03_erase_ends_interactions"
   ],
   "note": "The purge criterion must hold for pairs with a missing body."
  },
  {
   "property": "C04",
   "status": "proved",
   "theorems": [
    "C04_one_per_pair",
    "C04_insert_effect",
    "C04_request_erase_effect"
   ],
   "note": ""
  },
  {
   "property": "C05",
   "status": "proved",
   "theorems": [
    "C05_containers_agree"
   ],
   "note": ""
  },
  {
   "property": "C06",
   "status": "partial",
   "theorems": [
    "C06_recycled_ids_refuted",
    "C06_recycled_ids_partial",
    "C06_no_trace_after_clear_partial"
   ],
   "note": "False: the purge leaves an entry for a lower-numbered erased body in the other body's map. Proved when no map or listed interaction mentions the reused id."
  },
  {
   "property": "C07",
   "status": "proved",
   "theorems": [
    "C07_purge_exact"
   ],
   "note": ""
  },
  {
   "property": "C08",
   "status": "partial",
   "theorems": [
    "C08_eraseNonReal_refuted",
    "C08_eraseNonReal_partial"
   ],
   "note": "False: out-of-bounds iteration as soon as an interaction other than the last one is not real. The partial theorem characterises exactly when it works."
  },
  {
   "property": "C09",
   "status": "partial",
   "theorems": [
    "C09_reload_exact_partial",
    "C09_reload_exact_refuted"
   ],
   "note": "False when a saved interaction has a missing body: loading stops there. Proved for the states of C05, where this cannot happen."
  },
  {
   "property": "C47",
   "status": "partial",
   "theorems": [
    "C47_reappended_body_refuted",
    "C47_reappended_body_partial"
   ],
   "note": "False: the body keeps its old interaction map. Proved for a body whose map is empty."
  },
  {
   "property": "C23",
   "status": "proved",
   "theorems": [
    "C23_states_survive_transmission"
   ],
   "note": ""
  },
  {
   "property": "C24",
   "status": "partial",
   "theorems": [
    "C24_states_with_bounds_refuted",
    "C24_states_with_bounds_partial"
   ],
   "note": "False for a body without bound, which arrives with a zero-sized bound at the origin. Proved when every body sent has a bound."
  },
  {
   "property": "C48",
   "status": "partial",
   "theorems": [
    "C48_wrong_length_rejected_refuted",
    "C48_wrong_length_partial"
   ],
   "note": "False: the length check only logs; a short message is read beyond its end. The partial theorem says exactly what happens."
  },
  {
   "property": "C49",
   "status": "proved",
   "theorems": [
    "C49_subdomain_box"
   ],
   "note": "Coordinates are integers with infinities; NaN not modelled."
  },
  {
   "property": "C50",
   "status": "proved",
   "theorems": [
    "C50_exception_ends_run"
   ],
   "note": ""
  },
  {
   "property": "C25",
   "status": "partial",
   "theorems": [
    "C25_no_deadlock_refuted",
    "C25_no_deadlock_partial"
   ],
   "note": "False with the default ACCUMULATE_FORCES: a worker sends its forces by a blocking send even if the master does not expect them, so without buffering all processes wait for ever. Proved for any script, interleaving, buffering choice and number of processes without force accumulation, or if the master has a bounded body touching every subdomain. Local computations are abstract (assumptions in the record good)."
  },
  {
   "property": "C26",
   "status": "proved",
   "theorems": [
    "C26_states_reach_the_right_bodies"
   ],
   "note": "Under the hypotheses of C25_no_deadlock_partial."
  },
  {
   "property": "C27",
   "status": "partial",
   "theorems": [
    "C27_master_forces_current_refuted",
    "C27_master_forces_current_partial"
   ],
   "note": "False: an unreceived force message of an earlier step shifts all later ones. Proved when the master has a bounded body touching every subdomain."
  },
  {
   "property": "C28",
   "status": "proved",
   "theorems": [
    "C28_merge_collects_from_owner"
   ],
   "note": "Under the hypotheses of C25_no_deadlock_partial."
  },
  {
   "property": "C51",
   "status": "partial",
   "theorems": [
    "C51_split_with_erased_bodies_refuted",
    "C25_no_deadlock_partial"
   ],
   "note": "False: workers read an attribute of the erased body. Proved for scenes without erased bodies."
  },
  {
   "property": "C14",
   "status": "partial",
   "theorems": [
    "C14_every_overlap_is_found_refuted",
    "C14_recycled_id_refuted",
    "C14_every_overlap_is_found_partial"
   ],
   "note": "False if a pair becomes able to collide otherwise than by moving (mask change, id used again). Proved for all histories in which this does not happen, with any number of threads; aperiodic scenes."
  },
  {
   "property": "C15",
   "status": "proved",
   "theorems": [
    "C15_new_pairs_are_justified"
   ],
   "note": "Aperiodic scenes."
  },
  {
   "property": "C16",
   "status": "proved",
   "theorems": [
    "C16_lists_are_sorted"
   ],
   "note": "Aperiodic scenes; number of ids not decreasing, see C52."
  },
  {
   "property": "C17",
   "status": "proved",
   "theorems": [
    "C17_only_separated_pairs_are_purged",
    "C17_purged_pairs_return"
   ],
   "note": "Return under the condition of C14 on what changes between runs."
  },
  {
   "property": "C30",
   "status": "proved",
   "theorems": [
    "C30_pairs_are_examined_by_their_owners",
    "C30_subdomains_meet_foreign_bodies"
   ],
   "note": ""
  },
  {
   "property": "C42",
   "status": "proved",
   "theorems": [
    "C42_may_collide"
   ],
   "note": ""
  },
  {
   "property": "C52",
   "status": "partial",
   "theorems": [
    "C52_fewer_bodies_refuted",
    "C52_no_read_outside_partial"
   ],
   "note": "False: with fewer bodies than at the last run the lists are left empty and read. Proved when the number of ids does not decrease or the collider is reset."
  },
  {
   "property": "C53",
   "status": "partial",
   "theorems": [
    "C53_parallel_sort_stays_inside_refuted",
    "C53_parallel_sort_stays_inside_partial"
   ],
   "note": "False for many threads and few bounds (64 threads, 2000 bounds). Proved for at least 2 t^2 bounds."
  },
  {
   "property": "C18",
   "status": "proved",
   "theorems": [
    "C18_bodies_inside_their_boxes_are_found"
   ],
   "note": "For all histories; the collider's own subdomain and mask are constant and the interaction loop does not lose interactions (hypothesis fair)."
  },
  {
   "property": "C54",
   "status": "partial",
   "theorems": [
    "C54_collider_runs_in_time_partial",
    "C54_replaced_integrator_refuted",
    "C54_turning_body_refuted",
    "C54_scripted_move_refuted"
   ],
   "note": "False when the integrator engine is replaced (the collider keeps reading the old one), when a non-spherical body turns in place, and for one step after a script moves a body. Proved without these."
  },
  {
   "property": "C31",
   "status": "proved",
   "theorems": [
    "C31_nearest_functor",
    "C31_nearest_unique",
    "C31_duplicates_ignored"
   ],
   "note": "For functor lists without two functors of the same class; of such duplicates the first is kept (C31_duplicates_ignored)."
  },
  {
   "property": "C32",
   "status": "partial",
   "theorems": [
    "C32_independent_of_history_refuted",
    "C32_ambiguity_reported_refuted",
    "C32_nearest_pair_partial",
    "C32_answer_stable_partial"
   ],
   "note": "False: cached answers of ancestor pairs make later lookups ambiguous, and an ambiguous pair raises only the first time. Proved if no ancestor pair was looked up before; an answer once given is stable."
  },
  {
   "property": "C55",
   "status": "partial",
   "theorems": [
    "C55_shape_uses_new_list_refuted",
    "C55_interaction_uses_new_list_refuted",
    "C55_new_functor_for_old_pair_refuted",
    "C55_shape_partial",
    "C55_interaction_partial"
   ],
   "note": "False: shapes keep the bound functor, interactions the geometry functor (or the information that there is none). Proved for new bodies and new or reset interactions."
  },
  {
   "property": "C56",
   "status": "proved",
   "theorems": [
    "C56_arguments_fit",
    "C56_interaction_order",
    "C56_lookup_ends"
   ],
   "note": ""
  },
  {
   "property": "C34",
   "status": "partial",
   "theorems": [
    "C34_at_most_nDo_refuted",
    "C34_at_most_nDo_partial",
    "C34_never_within_period",
    "C34_whichever_comes_first",
    "C34_starts_again"
   ],
   "note": "False for nDo=0 with initRun (runs once). Proved for nDo>=1 and, for the spacing, without restriction."
  },
  {
   "property": "C35",
   "status": "proved",
   "theorems": [
    "C35_get_after_set",
    "C35_set_after_get",
    "C35_letter_blocks_its_own",
    "C35_axis_letter",
    "C35_from_vectors",
    "C35_dynamic"
   ],
   "note": ""
  },
  {
   "property": "C36",
   "status": "partial",
   "theorems": [
    "C36_other_keys_unchanged_refuted",
    "C36_last_assigned_partial",
    "C36_bad_key_raises",
    "C36_keys"
   ],
   "note": "False when reading keys that contain '=' (they cannot be assigned, but can appear to exist). Proved for all keys without '='."
  },
  {
   "property": "C57",
   "status": "partial",
   "theorems": [
    "C57_exact_schedule_partial",
    "C57_first_run_partial",
    "C57_no_initial_run_refuted",
    "C57_nDo_runs_refuted",
    "C57_first_run_refuted"
   ],
   "note": "False: an engine added at a step >= iterPeriod runs at once, the initial call without a run counts for nDo, a missed firstIterRun disables the engine. The exact schedule is proved for engines added before step iterPeriod."
  },
  {
   "property": "C33",
   "status": "partial",
   "theorems": [
    "C33_energies_exact_partial",
    "C33_names_mixed_refuted",
    "C33_contribution_lost_refuted",
    "C33_kept_engines_refuted"
   ],
   "note": "False when the tracker is cleared or replaced while engines remember indices, and when two threads create the same name at the same time. Exact values, names and total are proved for all other schedules."
  },
  {
   "property": "C58",
   "status": "partial",
   "theorems": [
    "C58_no_overread_refuted",
    "C58_one_thread_partial",
    "C58_few_names_partial"
   ],
   "note": "False with two threads and more names than fit into one cache line (memcpy reads the new length from the old chunk). Proved for one thread and for few names."
  },
  {
   "property": "C37",
   "status": "proved",
   "theorems": [
    "C37_round_trip",
    "C37_rigid"
   ],
   "note": "Over the reals: rounding is not modelled."
  },
  {
   "property": "C38",
   "status": "proved",
   "theorems": [
    "C38_forces_collected"
   ],
   "note": "Over the reals: rounding is not modelled."
  },
  {
   "property": "C59",
   "status": "partial",
   "theorems": [
    "C59_clump_inertia_partial",
    "C59_overlap_partial",
    "C59_single",
    "C59_turned_member_refuted",
    "C59_left_handed_refuted"
   ],
   "note": "False for turned members that are not spheres (Clump.cpp:207 turns the inertia with the transpose) and for eigenvector matrices of determinant -1. Proved for all other clumps of members that do not overlap, for overlapping spheres of density 1 (the integration over the grid counts every covered cell once), and for one member."
  },
  {
   "property": "C60",
   "status": "partial",
   "theorems": [
    "C60_density_scales_partial",
    "C60_density_scales_overlap_partial",
    "C60_overlap_inertia_refuted"
   ],
   "note": "False for the inertia of overlapping members (Clump.cpp:178 omits the density). Proved for all other quantities."
  },
  {
   "property": "C29",
   "status": "proved",
   "theorems": [
    "C29_one_process",
    "C29_every_body_owned"
   ],
   "note": "Bodies of all processes are moved by the one whose number the body (or its clump) carries. Over the reals."
  },
  {
   "property": "C39",
   "status": "proved",
   "theorems": [
    "C39_blocked_axis",
    "C39_free_axis",
    "C39_position",
    "C39_blocked_periodic"
   ],
   "note": "Over the reals. In periodic scenes the velocity of the cell is added to blocked components too: C39_blocked_periodic states exactly what is added."
  },
  {
   "property": "C61",
   "status": "partial",
   "theorems": [
    "C61_kinetic_partial",
    "C61_tracked_partial",
    "C61_tracked_refuted"
   ],
   "note": "O.energy['kinetic'] is wrong for turned aspherical bodies (NewtonIntegrator.cpp:55 uses T^T I T instead of T I T^T). utils.kineticEnergy() is proved right when the flag aspherical is set where needed."
  },
  {
   "property": "C62",
   "status": "proved",
   "theorems": [
    "C62_unit_orientations"
   ],
   "note": "Over the reals."
  },
  {
   "property": "C63",
   "status": "partial",
   "theorems": [
    "C63_damping_power_partial",
    "C63_damping_partial",
    "C63_damping_refuted"
   ],
   "note": "False for a body whose velocity changes its sign within the step; proved for all others."
  },
  {
   "property": "C64",
   "status": "partial",
   "theorems": [
    "C64_angular_velocity_partial",
    "C64_angular_velocity_refuted"
   ],
   "note": "False: NewtonIntegrator.cpp:262 rotates with a quaternion that is not yet normalized. The partial theorem gives the exact error."
  },
  {
   "property": "C65",
   "status": "proved",
   "theorems": [
    "C65_order_irrelevant"
   ],
   "note": ""
  },
  {
   "property": "C66",
   "status": "partial",
   "theorems": [
    "C66_momentum_partial",
    "C66_angular_momentum_partial",
    "C66_momentum_refuted",
    "C66_angular_momentum_refuted"
   ],
   "note": "False for clumps (counted by themselves and through their members) and for the spin of spherical bodies (angMom is not updated). Proved for scenes without clumps and with angMom up to date."
  },
  {
   "property": "C67",
   "status": "partial",
   "theorems": [
    "C67_mask_partial",
    "C67_mask_meaning",
    "C67_mask_refuted"
   ],
   "note": "False for the aspherical integrator, which ignores the mask. Proved for all other bodies."
  },
  {
   "property": "C40",
   "status": "partial",
   "theorems": [
    "C40_contact_point_partial",
    "C40_spheres_partial",
    "C40_touching",
    "C40_ways_agree",
    "C40_scene_partial",
    "C40_action_reaction_refuted"
   ],
   "note": "False with the default sphericalBodies=true for a sphere on a wall (documented in the code as wrong for facets and boxes, and also the only way in periodic scenes). Proved for all contacts when forces are applied at the contact point, and for spheres in any case."
  },
  {
   "property": "C68",
   "status": "proved",
   "theorems": [
    "C68_coulomb",
    "C68_nearest_unique",
    "C68_reset_iff_open",
    "C68_detection"
   ],
   "note": "Exact real arithmetic."
  },
  {
   "property": "C69",
   "status": "partial",
   "theorems": [
    "C69_tracing_neutral",
    "C69_plastic_work_partial",
    "C69_tracked_dissipation_refuted"
   ],
   "note": "False: nothing is added to O.energy['plastDissip'] if the functor's traceEnergy is also on. The rest is proved."
  },
  {
   "property": "C70",
   "status": "proved",
   "theorems": [
    "C70_rigid_motion"
   ],
   "note": "Exact real arithmetic."
  },
  {
   "property": "C71",
   "status": "partial",
   "theorems": [
    "C71_no_ratcheting_partial",
    "C71_no_ratcheting_refuted"
   ],
   "note": "False if avoidGranularRatcheting is off; proved for any number of steps if it is on (the default)."
  },
  {
   "property": "C72",
   "status": "partial",
   "theorems": [
    "C72_magnitude_partial",
    "C72_tangent_partial",
    "C72_carried_along_refuted"
   ],
   "note": "False: the rotation is linearized. The partial theorems bound the error exactly."
  },
  {
   "property": "C73",
   "status": "proved",
   "theorems": [
    "C73_momentum",
    "C73_angular_momentum",
    "C73_conservation"
   ],
   "note": "Scenes that are not periodic, without damping, blocked degrees of freedom, or density scaling; equal principal moments for the angular momentum; exact real arithmetic."
  },
  {
   "property": "C74",
   "status": "partial",
   "theorems": [
    "C74_series_partial",
    "C74_once",
    "C74_series_refuted"
   ],
   "note": "False if both poisson ratios are 0: the shear stiffness is 0/0. Proved for positive values."
  },
  {
   "property": "C75",
   "status": "proved",
   "theorems": [
    "C75_order_of_bodies",
    "C75_same_forces"
   ],
   "note": ""
  },
  {
   "property": "C76",
   "status": "proved",
   "theorems": [
    "C76_first_match",
    "C76_symmetric",
    "C76_fallback"
   ],
   "note": ""
  },
  {
   "property": "C41",
   "status": "partial",
   "theorems": [
    "C41_wrap_partial",
    "C41_period_partial",
    "C41_far_refuted",
    "C41_double_refuted"
   ],
   "note": "Proved with exact real numbers. False if the number of periods does not fit an int (undefined), and false in double precision: a coordinate just below zero is wrapped to the size itself."
  },
  {
   "property": "C77",
   "status": "proved",
   "theorems": [
    "C77_deformation",
    "C77_increment",
    "C77_velGrad"
   ],
   "note": ""
  },
  {
   "property": "C78",
   "status": "proved",
   "theorems": [
    "C78_wrap",
    "C78_unique",
    "C78_period",
    "C78_shear",
    "C78_box"
   ],
   "note": "Exact real numbers; see C41 for rounding."
  },
  {
   "property": "C79",
   "status": "proved",
   "theorems": [
    "C79_shift_velocity"
   ],
   "note": ""
  },
  {
   "property": "C80",
   "status": "partial",
   "theorems": [
    "C80_homogeneous_partial",
    "C80_changing_dt_refuted"
   ],
   "note": "Proved for constant dt. False if dt changes: the body has been moved with the old dt and the cell is updated with the new one."
  },
  {
   "property": "C81",
   "status": "partial",
   "theorems": [
    "C81_sphere_box_partial",
    "C81_sphere_box_refuted"
   ],
   "note": "False for general shapes: the sphere sticks out of its box. Proved if one base vector is perpendicular to the two others."
  },
  {
   "property": "C82",
   "status": "partial",
   "theorems": [
    "C82_new_reference_partial",
    "C82_new_reference_refuted"
   ],
   "note": "False: assigning hSize does not reset trsf. Proved for setBox, and for hSize if trsf is identity."
  },
  {
   "property": "C83",
   "status": "partial",
   "theorems": [
    "C83_never_fails",
    "C83_finds",
    "C83_sound",
    "C83_image",
    "C83_large_refuted"
   ],
   "note": "Exact arithmetic. All proved for boxes up to half the cell. False: larger boxes are accepted if they come first in the pair."
  },
  {
   "property": "C84",
   "status": "proved",
   "theorems": [
    "C84_lists"
   ],
   "note": "Histories: first run, resets, regular runs after arbitrary motion with the same bodies, runs from scratch if no body has its bounds in two cells."
  },
  {
   "property": "C85",
   "status": "partial",
   "theorems": [
    "C85_complete_partial",
    "C85_added_refuted",
    "C85_restarts_refuted"
   ],
   "note": "Proved for the histories of C84. False when bodies are added in a regular run, and after several runs from scratch that leave the bounds of a body in different cells."
  },
  {
   "property": "C86",
   "status": "partial",
   "theorems": [
    "C86_new_partial",
    "C86_stale_refuted"
   ],
   "note": "Proved when the interaction is created. False later: the test that keeps a potential interaction ignores the image."
  },
  {
   "property": "C87",
   "status": "partial",
   "theorems": [
    "C87_reset_partial",
    "C87_empty_undefined",
    "C87_switch_undefined"
   ],
   "note": "False in both cases: division by zero, and vectors cleared while their size is kept. Proved safe after a reset with bodies."
  },
  {
   "property": "C88",
   "status": "proved",
   "theorems": [
    "C88_scratch"
   ],
   "note": ""
  },
  {
   "property": "C89",
   "status": "proved",
   "theorems": [
    "C89_first",
    "C89_next"
   ],
   "note": ""
  },
  {
   "property": "C90",
   "status": "proved",
   "theorems": [
    "C90_first",
    "C90_next"
   ],
   "note": "Assumes that the bodies of potential interactions still have boxes."
  },
  {
   "property": "C91",
   "status": "partial",
   "theorems": [
    "C91_ends_partial",
    "C91_enough",
    "C91_few_refuted"
   ],
   "note": "False with too few spheres: process_data indexes an empty list in rank 1, and the other processes wait for ever. Proved, for all executions, when every split that is made has a body to split (in particular when there are as many spheres as workers)."
  },
  {
   "property": "C92",
   "status": "partial",
   "theorems": [
    "C92_assigned_partial"
   ],
   "note": "Proved under the condition of C91."
  },
  {
   "property": "C93",
   "status": "partial",
   "theorems": [
    "C93_balance_partial",
    "C93_factor_two_partial",
    "C93_levels_refuted",
    "C93_nothing_refuted"
   ],
   "note": "False: the number of levels is computed with the natural logarithm, so that with 17, 18 or at least 65 workers some get no sphere at all; with 3 workers and 3 spheres rank 1 gets none. Proved: within one body for 2, 4, 8 and 16 workers, within a factor of two for up to 16."
  },
  {
   "property": "C94",
   "status": "partial",
   "theorems": [
    "C94_separated_partial",
    "C94_axis_partial"
   ],
   "note": "Proved under the condition of C91."
  },
  {
   "property": "C95",
   "status": "partial",
   "theorems": [
    "C95_clump_split_refuted"
   ],
   "note": "False: two spheres are always given to different workers (two to four workers), clumps are not considered. Nothing positive to prove."
  },
  {
   "property": "C96",
   "status": "partial",
   "theorems": [
    "C96_bounds_partial",
    "C96_grow_refuted"
   ],
   "note": "False after REASSIGN_SUBDOMAINS: the list of members then contains the body of the subdomain, whose bound is the former box, so that the box never shrinks. Proved for the first split."
  },
  {
   "property": "C97",
   "status": "partial",
   "theorems": [
    "C97_manual_partial",
    "C97_missing_refuted"
   ],
   "note": "False when a direction is left out: there is then no subdomain at all and findSubdomain returns 0, the master, for every point. Proved if all three numbers are given."
  },
  {
   "property": "C98",
   "status": "partial",
   "theorems": [
    "C98_find_partial",
    "C98_everywhere_partial",
    "C98_halves_refuted",
    "C98_large_refuted"
   ],
   "note": "False: with 9 workers in a cube, one block is halved and points of the neighbour block are given to one of the halves, as the smaller block has the smaller sum of distances; in a very large domain 0 is returned. Proved for blocks of equal size in domains of up to 400 km."
  },
  {
   "property": "C99",
   "status": "partial",
   "theorems": [
    "C99_automatic_partial",
    "C99_thin_refuted",
    "C99_long_refuted"
   ],
   "note": "False: the loop does not end if an edge in x or z is shorter than 5 mm, nor if an edge in x or z is between 5 and 10 mm and there are more cubes of 5 mm than threads (1 m x 1 m x 7 mm and 4 threads). Proved: whenever it ends, there are exactly numThreads subdomains which tile the box."
  },
  {
   "property": "C100",
   "status": "partial",
   "theorems": [
    "C100_nearest_partial",
    "C100_remote_partial",
    "C100_distance_partial",
    "C100_last_partial",
    "C100_remote_refuted"
   ],
   "note": "False: the list of drawn points is emptied before each draw, so that always the last one is kept. Proved: the choice among the points of the list, and that findSubdomain returns the nearest point."
  },
  {
   "property": "C101",
   "status": "proved",
   "theorems": [
    "C101_schedule",
    "C101_each",
    "C101_contact",
    "C101_given",
    "C101_callbacks",
    "C101_frame"
   ],
   "note": "Functors are parameters; one iteration is one transition."
  },
  {
   "property": "C102",
   "status": "proved",
   "theorems": [
    "C102_since",
    "C102_fresh"
   ],
   "note": ""
  },
  {
   "property": "C103",
   "status": "partial",
   "theorems": [
    "C103_real_partial",
    "C103_shape_refuted"
   ],
   "note": "False if the shape of a body is removed while it is in contact (also for clumps): the interaction is skipped and stays real for ever. Proved otherwise."
  },
  {
   "property": "C104",
   "status": "partial",
   "theorems": [
    "C104_kept_partial",
    "C104_unseen_refuted"
   ],
   "note": "False: the pairs are only appended to eraseAfterLoopIds, which nothing reads or empties; the interaction stays and the list grows in each step. Proved: exactly what happens."
  },
  {
   "property": "C105",
   "status": "partial",
   "theorems": [
    "C105_inactive_partial",
    "C105_ignored_refuted",
    "C105_reset_refuted"
   ],
   "note": "False: Law2_ScGeom_FrictPhys_CundallStrack does not look at isActive; Law2_ScGeom_ViscElPhys_Basic returns false, by which the interaction is reset to active, and the forces are back one step later. Proved for laws which add no forces to an inactive interaction."
  },
  {
   "property": "C106",
   "status": "partial",
   "theorems": [
    "C106_complete_partial",
    "C106_order_refuted",
    "C106_missing_refuted"
   ],
   "note": "False: the order found by the dispatcher of Ip2 functors is ignored (an assertion only), so that a functor for two different materials is given them in the wrong order and casts them to the wrong class; without Ip2 functor an exception leaves a parallel region, without Law2 functor exit(1) is called. Proved if functors are found and accept both orders."
  },
  {
   "property": "C107",
   "status": "partial",
   "theorems": [
    "C107_touching_partial",
    "C107_once_partial",
    "C107_corner_refuted"
   ],
   "note": "False: Grid::pt2int subtracts mn[1] from all three coordinates, so that with aabbMin off the diagonal (x=y=z) cells and their closest points disagree and contacts are missed. Proved, over whole simulations, for aabbMin on the diagonal."
  },
  {
   "property": "C108",
   "status": "partial",
   "theorems": [
    "C108_memory_partial",
    "C108_index",
    "C108_large_refuted"
   ],
   "note": "The index of a cell is within the data for every point. False for large grids: the number of cells is computed as int and overflows (2000 cells in each direction). Proved for grids of less than 2^31 cells and scenes of spheres (other shapes throw)."
  },
  {
   "property": "C109",
   "status": "partial",
   "theorems": [
    "C109_first_refuted",
    "C109_again_partial"
   ],
   "note": "False: a new interaction has iterLastSeen -1 unless the spheres share several cells, and is skipped as unseen in the step in which it is created. Proved: when it is found again it is seen."
  },
  {
   "property": "C110",
   "status": "partial",
   "theorems": [
    "C110_complete",
    "C110_exact_partial"
   ],
   "note": "Completeness for all histories; exactness for scenes in which all bodies exist and have a bound (see C111). The boxes overlap strictly in y and z."
  },
  {
   "property": "C111",
   "status": "partial",
   "theorems": [
    "C111_safe_partial",
    "C111_no_bound_refuted",
    "C111_erased_refuted"
   ],
   "note": "False: the list has one entry per body slot, so that with a body without bound entries are sorted which were never written, and after a body is erased an old entry makes it insert an interaction of a null body. Proved if all bodies exist and have a bound."
  },
  {
   "property": "C112",
   "status": "partial",
   "theorems": [
    "C112_rules_partial",
    "C112_rules_refuted"
   ],
   "note": "False: SpatialQuickSortCollider never asks mayCollide. Proved only if all overlapping pairs are allowed; for InsertionSortCollider see C40, C42."
  },
  {
   "property": "C113",
   "status": "partial",
   "theorems": [
    "C113_half_partial",
    "C113_frictionless_partial",
    "C113_aligned_partial",
    "C113_default_refuted",
    "C113_unloaded_refuted"
   ],
   "note": "False with the default safety coefficient 0.8: two equal balls with one contact along (1,1,1), for which the diagonal of the stiffness matrix is a third of its eigenvalue; and false for contacts that carry no force yet, which are not counted. Proved with density scaling or without, for any scene without clumps whose contacts carry force, if the coefficient is at most 1/2; at most 1/sqrt 3 without friction and moments; at most 1 if moreover normals are along axes. Missing: clumps, damping, viscous contacts, rounding."
  },
  {
   "property": "C114",
   "status": "partial",
   "theorems": [
    "C114_bounds_partial",
    "C114_negative_refuted"
   ],
   "note": "False for negative maxDt, which the documentation says to be ignored: it becomes the time step. Proved for all histories of scenes with positive settings."
  },
  {
   "property": "C115",
   "status": "partial",
   "theorems": [
    "C115_defined_partial",
    "C115_activated_partial",
    "C115_unassigned_refuted",
    "C115_not_resized_refuted",
    "C115_null_refuted",
    "C115_interval_refuted"
   ],
   "note": "False: with viscEl a dynamic body without contact uses an unassigned dt; viscEl switched on later leaves the viscosity arrays empty and memset writes outside; densityScaling with a body that is not an elastic sphere and has no contact uses a null pointer; interval 0 divides by zero. Proved without these."
  },
  {
   "property": "C116",
   "status": "partial",
   "theorems": [
    "C116_ball_partial",
    "C116_outside_partial",
    "C116_ellipsoid_refuted",
    "C116_symmetric_difference_refuted",
    "C116_notch_refuted"
   ],
   "note": "False: inEllipsoid shrinks the semi-axes, which is not the set of points at that distance from the surface; the symmetric difference shrinks both volumes, so that a sphere in one may overlap the other; notInNotch uses the distance to the upper edge for points below the notch. Proved for all unions, intersections and differences of spheres, boxes, right-handed parallelepipeds and cylinders. Missing: hyperboloids (documented as inaccurate), inGtsSurface."
  },
  {
   "property": "C117",
   "status": "partial",
   "theorems": [
    "C117_box_partial",
    "C117_ellipsoid_refuted"
   ],
   "note": "False if the pad exceeds the semi-axes of an ellipsoid: differences are squared and the ellipsoid grows again. Proved for all other predicates, cylinders and hyperboloids in any direction included."
  },
  {
   "property": "C118",
   "status": "partial",
   "theorems": [
    "C118_points_partial",
    "C118_left_handed_refuted",
    "C118_flat_cylinder_refuted"
   ],
   "note": "False for degenerate arguments, which are not checked: a parallelepiped whose edges are left-handed contains nothing, a cylinder whose ends coincide contains every point. Proved for all other volumes."
  },
  {
   "property": "C119",
   "status": "partial",
   "theorems": [
    "C119_merge_partial",
    "C119_no_box_refuted",
    "C119_erased_refuted"
   ],
   "note": "False for bodies without box (clumps): the master gives them one at the origin; and if a worker has erased one of its bodies the master reads outside of the data. Proved if master and workers agree about who has which body and all bodies of workers have boxes."
  },
  {
   "property": "C120",
   "status": "partial",
   "theorems": [
    "C120_ends_partial",
    "C120_value_partial",
    "C120_wrap_partial",
    "C120_empty_refuted",
    "C120_jump_refuted"
   ],
   "note": "False for an empty table, the default (undefined behaviour), and for a jump given as two values at one time: the result depends on former lookups and may be NaN. Proved for increasing times; termination, no access outside and the range of values for all nonempty tables, sorted or not."
  },
  {
   "property": "C121",
   "status": "partial",
   "theorems": [
    "C121_rotation_partial",
    "C121_spin_partial",
    "C121_translation_partial",
    "C121_helix_partial",
    "C121_interpolated_partial",
    "C121_twice_refuted"
   ],
   "note": "False if an id is listed twice: the velocity is added twice. Proved for lists without repetition, unit axes, nonzero time steps and bodies whose motion is prescribed (not dynamic), not periodic."
  },
  {
   "property": "C122",
   "status": "partial",
   "theorems": [
    "C122_circle_partial",
    "C122_phase_refuted"
   ],
   "note": "False: old minus new position is used as velocity, so the motion is that with the phase off by half a turn. Proved: circle, radius, plane, angular velocity, no rotation."
  },
  {
   "property": "C123",
   "status": "partial",
   "theorems": [
    "C123_harmonic_partial",
    "C123_rotation_partial",
    "C123_bounded_partial",
    "C123_drift_refuted"
   ],
   "note": "False if the time step is a multiple of the period: the body moves away for ever. Proved for all other constant time steps: exactly harmonic, with the amplitude multiplied by (w h/2)/sin(w h/2), half a step late."
  },
  {
   "property": "C124",
   "status": "partial",
   "theorems": [
    "C124_speed_partial",
    "C124_measured_partial",
    "C124_inclined_refuted",
    "C124_sign_refuted"
   ],
   "note": "False for inclined axes (the force is multiplied by the axis component by component) and for the sign (the norm is compared with the target). Proved: the bound on velocity and displacement for all forces; the regulated quantity along coordinate axes."
  },
  {
   "property": "C125",
   "status": "partial",
   "theorems": [
    "C125_sum_partial",
    "C125_order_partial",
    "C125_frame_partial",
    "C125_operator_refuted"
   ],
   "note": "False for the operator: ab+c changes ab. Proved for lists of ids without repetition."
  },
  {
   "property": "C126",
   "status": "proved",
   "theorems": [
    "C126_equal_lengths"
   ],
   "note": "For every list of calls from the state after import, with any choice of the first key."
  },
  {
   "property": "C127",
   "status": "partial",
   "theorems": [
    "C127_row_partial",
    "C127_history_partial",
    "C127_sequence_partial",
    "C127_clash_refuted",
    "C127_argument_refuted"
   ],
   "note": "False: a value given for a name that a component has too is lost, and the dictionary given as argument is changed. Proved for arguments without such names, with no images or at least one row of data; refinement of the history of calls by the transposed table."
  },
  {
   "property": "C128",
   "status": "partial",
   "theorems": [
    "C128_reset_partial",
    "C128_reset_refuted"
   ],
   "note": "False: labels are kept, and imgData={} assigns a local variable, so that images are kept and the next row of data is padded with nan. Proved for data and plots."
  },
  {
   "property": "C129",
   "status": "partial",
   "theorems": [
    "C129_image_partial",
    "C129_order_refuted",
    "C129_empty_refuted",
    "C129_data_refuted",
    "C129_reverse_refuted"
   ],
   "note": "False: a new name of images that comes first in the dictionary gives AssertionError; an image plot without images gives IndexError; data are repeated instead of nan; reverseData leaves images in place. Proved if the first key is an old one and no column is empty."
  },
  {
   "property": "C130",
   "status": "partial",
   "theorems": [
    "C130_text_partial",
    "C130_space_refuted",
    "C130_digits_refuted",
    "C130_headers_refuted",
    "C130_no_data_refuted"
   ],
   "note": "False for names with spaces, numbers of more than twelve digits, headers and empty data. Proved for names without white space and any printing of numbers without white space: the printed words are read again in their places."
  },
  {
   "property": "C131",
   "status": "partial",
   "theorems": [
    "C131_apart_partial",
    "C131_periodic_partial",
    "C131_orthogonal_partial",
    "C131_skewed_refuted",
    "C131_image_refuted"
   ],
   "note": "False in skewed cells: only the nearest image of each component is checked; a sphere larger than half the period touches its own image. Proved without periodicity, in periodic boxes and in cells with right angles, against all images of all former spheres."
  },
  {
   "property": "C132",
   "status": "partial",
   "theorems": [
    "C132_box_partial",
    "C132_cell_partial",
    "C132_large_refuted"
   ],
   "note": "False for spheres wider than the box. Proved in each direction in which the sphere fits."
  },
  {
   "property": "C133",
   "status": "partial",
   "theorems": [
    "C133_count_partial",
    "C133_kept_partial",
    "C133_count_refuted",
    "C133_lost_refuted"
   ],
   "note": "False for a packing that is not empty: the number returned counts former spheres, and a second attempt removes them. Proved for an empty packing; former spheres are kept if rMean is given."
  },
  {
   "property": "C134",
   "status": "partial",
   "theorems": [
    "C134_process_partial",
    "C134_second_refuted",
    "C134_ignored_refuted"
   ],
   "note": "False: the generator is static, so that seeds of later calls are ignored. Proved: the same list of calls gives the same results at any time if the first seed is not zero."
  },
  {
   "property": "C135",
   "status": "partial",
   "theorems": [
    "C135_mean_partial",
    "C135_number_partial",
    "C135_psd_partial",
    "C135_defined_partial",
    "C135_cumm_refuted"
   ],
   "note": "False: a distribution that begins with 0 or ends with 1 but not both is accepted (&& for ||) and read outside its ends. Proved for all others, over all attempts; real numbers without rounding."
  },
  {
   "property": "C136",
   "status": "partial",
   "theorems": [
    "C136_repeat_partial",
    "C136_clumps_refuted"
   ],
   "note": "False: copies belong to no clump. Proved: all the rest, for all counts; real numbers without rounding."
  },
  {
   "property": "C137",
   "status": "partial",
   "theorems": [
    "C137_fill_partial",
    "C137_small_refuted",
    "C137_not_periodic_refuted"
   ],
   "note": "False: the cell covers the volume but the spheres need not, and a packing that is not periodic divides by zero before the check. Proved for positive sizes."
  },
  {
   "property": "C138",
   "status": "partial",
   "theorems": [
    "C138_psd_partial",
    "C138_order_refuted"
   ],
   "note": "False: the lists come in the other order than documented, and zero bins write outside. Proved: what each list is, for all packings and positive numbers of bins."
  },
  {
   "property": "C139",
   "status": "partial",
   "theorems": [
    "C139_moves_partial",
    "C139_places",
    "C139_density",
    "C139_overlap",
    "C139_box",
    "C139_axis_refuted",
    "C139_back_refuted",
    "C139_flag_refuted"
   ],
   "note": "False: an axis that is not of unit length distorts; the centre of the box moves in a rotation, so that the opposite one does not restore; isPeriodic stays. Proved: all other parts, and restoring if the centre is kept."
  },
  {
   "property": "C140",
   "status": "partial",
   "theorems": [
    "C140_lists_partial",
    "C140_stale_refuted",
    "C140_lost_refuted",
    "C140_iteration_refuted"
   ],
   "note": "False: the cell size of the packing before stays, failing calls lose the packing, members made by the constructor are not initialised, iteration drops the clump. Proved: the spheres depend on the data alone and round trips."
  },
  {
   "property": "C141",
   "status": "proved",
   "theorems": [
    "C141_clumps",
    "C141_partition",
    "C141_has"
   ],
   "note": ""
  },
  {
   "property": "C142",
   "status": "partial",
   "theorems": [
    "C142_box_partial",
    "C142_periodic_partial",
    "C142_trial_partial",
    "C142_everywhere_partial",
    "C142_existing_refuted",
    "C142_image_refuted",
    "C142_flat_refuted"
   ],
   "note": "False: spheres that were there before and images of the clump itself are not looked at; in a flat cell nothing is. Proved: new clumps are inside and clear of each other and of all images of each other."
  },
  {
   "property": "C143",
   "status": "partial",
   "theorems": [
    "C143_copies_partial",
    "C143_numbers_refuted",
    "C143_flag_refuted",
    "C143_far_refuted"
   ],
   "note": "False: numbers of clumps are given again, isPeriodic is not set, a clump far from the origin is moved away from it and never placed. Proved: what is added are rigid copies in the order of the packing, as many as returned."
  },
  {
   "property": "C144",
   "status": "partial",
   "theorems": [
    "C144_returns_partial",
    "C144_behind_refuted",
    "C144_empty_refuted"
   ],
   "note": "False: the sphere behind the last one is read; no clumps is undefined; an empty clump and a negative number never end. Proved: returns at most the number asked for if memory behind the list can be read."
  },
  {
   "property": "C145",
   "status": "partial",
   "theorems": [
    "C145_round_partial",
    "C145_replaces_partial",
    "C145_reads",
    "C145_cell_refuted",
    "C145_flag_refuted",
    "C145_failed_refuted",
    "C145_carried_refuted",
    "C145_exact_refuted"
   ],
   "note": "False: the cell stays if the file has none, isPeriodic is never set, a malformed file may change the cell, a line without clump takes the clump of the line before, and numbers of bounded length cannot be exact. Proved: spheres, clumps and a cell that is not zero come back rounded, for any format that can be read again, and saving again gives the same text."
  },
  {
   "property": "C146",
   "status": "proved",
   "theorems": [
    "C146_balance",
    "C146_forces",
    "C146_torques"
   ],
   "note": ""
  },
  {
   "property": "C147",
   "status": "partial",
   "theorems": [
    "C147_forces_partial",
    "C147_moments",
    "C147_amplified_refuted",
    "C147_tension_refuted",
    "C147_negative_refuted"
   ],
   "note": "False: where cohesion disables friction the shear force grows when the bond breaks; plastic shear of a bond that is not fragile removes its tension; with negative adhesion a compressed contact is lost and shear strength is reduced. Proved: normal force, shear force and moments as documented if shear adhesion is not negative and does not disable friction, without creep."
  },
  {
   "property": "C148",
   "status": "partial",
   "theorems": [
    "C148_history",
    "C148_no_tension",
    "C148_lost_partial",
    "C148_kept_refuted",
    "C148_engine_refuted",
    "C148_creep_refuted"
   ],
   "note": "False: a contact under tension that breaks in shear is kept; CohesiveFrictionalContactLaw ignores that a contact is lost, which then carries tension again; creep without viscosity gives no numbers. Proved: adhesion is kept or has gone over any history, broken contacts carry no tension, and exactly when a contact is lost."
  },
  {
   "property": "C149",
   "status": "partial",
   "theorems": [
    "C149_flag_partial",
    "C149_off",
    "C149_later",
    "C149_reset",
    "C149_new",
    "C149_weakest",
    "C149_asked",
    "C149_existing",
    "C149_again_refuted",
    "C149_saved_refuted",
    "C149_init_refuted"
   ],
   "note": "False: set again in a later step it is ignored; saved and loaded it is done once more; initCohesion makes contacts of materials without cohesion cohesive. Proved: set once, exactly the contacts of that step are assigned, with the strength of the materials; others are unchanged."
  },
  {
   "property": "C150",
   "status": "partial",
   "theorems": [
    "C150_symmetric",
    "C150_stiffness",
    "C150_energy_partial",
    "C150_value",
    "C150_energy_refuted"
   ],
   "note": "False: without rolling or twisting stiffness the energy is not a number. Proved: parameters do not depend on the order of bodies, harmonic averages, sum of four parts, not negative if all stiffnesses are positive."
  },
  {
   "property": "C151",
   "status": "partial",
   "theorems": [
    "C151_hull_partial",
    "C151_corners_partial",
    "C151_undefined",
    "C151_lost_refuted"
   ],
   "note": "False: if several points have the smallest x a corner may be lost; fewer than two points are undefined. Proved: contains all points and has no superfluous corners if one point is left of all the others, with any ties elsewhere."
  },
  {
   "property": "C152",
   "status": "partial",
   "theorems": [
    "C152_area",
    "C152_hull_partial",
    "C152_rotated",
    "C152_reversed",
    "C152_moved",
    "C152_mirrored",
    "C152_enlarged",
    "C152_nothing_refuted"
   ],
   "note": "False: no corners are undefined. Proved: area of convex polygons as sum of triangles from any point inside; invariance for all polygons."
  },
  {
   "property": "C153",
   "status": "partial",
   "theorems": [
    "C153_section_partial",
    "C153_nothing",
    "C153_defined",
    "C153_large_refuted"
   ],
   "note": "False: each sphere is replaced by a hexagon that is too high, so that the area of one sphere is more than that of the square around it. Proved: area of the hull of these hexagons if one corner is leftmost, 0 if no sphere meets the plane, never undefined."
  },
  {
   "property": "C154",
   "status": "partial",
   "theorems": [
    "C154_each",
    "C154_reads_partial",
    "C154_behind_refuted"
   ],
   "note": "False: the iterator reads the slot behind the last one before it compares with the end. Proved: each body once and in order, and exactly which slots are read."
  },
  {
   "property": "C155",
   "status": "partial",
   "theorems": [
    "C155_forces",
    "C155_work",
    "C155_balance_partial",
    "C155_balance_refuted",
    "C155_clump_partial",
    "C155_clump_refuted"
   ],
   "note": "False: the work booked lacks 1/2 m g^2 dt^2 in each step; clumps with overlapping members get the sum of the masses of the members times g, which is not their mass times g. Proved: forces of all bodies, exact imbalance, acceleration of clumps; Newton's gravity has neither problem with clumps."
  },
  {
   "property": "C156",
   "status": "partial",
   "theorems": [
    "C156_forces_partial",
    "C156_others_partial",
    "C156_total_partial",
    "C156_undefined_refuted"
   ],
   "note": "False: if the central body does not exist behaviour is undefined, it is so by default. Proved for all central bodies that exist."
  },
  {
   "property": "C157",
   "status": "partial",
   "theorems": [
    "C157_axial_partial",
    "C157_axial_others",
    "C157_axial_nan_refuted",
    "C157_radial_partial",
    "C157_radial_others"
   ],
   "note": "False: a zero axis gives NaN to all bodies. Proved for all other axes."
  },
  {
   "property": "C158",
   "status": "partial",
   "theorems": [
    "C158_force",
    "C158_interpolated_partial",
    "C158_wrap_refuted"
   ],
   "note": "False: one time and wrap gives NaN. Proved: forces of all bodies; interpolation itself is C120."
  },
  {
   "property": "C159",
   "status": "partial",
   "theorems": [
    "C159_engine_partial",
    "C159_laws",
    "C159_slower_partial",
    "C159_faster_refuted",
    "C159_undefined_refuted"
   ],
   "note": "False: ids outside of the container are undefined behaviour as the check comes too late; with time steps above 2m/k bodies get faster. Proved: forces of all bodies; deceleration without turning for time steps up to m/k."
  },
  {
   "property": "C160",
   "status": "partial",
   "theorems": [
    "C160_setup_partial",
    "C160_prepared_partial",
    "C160_runs_partial",
    "C160_blocked",
    "C160_speeds",
    "C160_time_partial",
    "C160_throws_refuted",
    "C160_swapped_refuted",
    "C160_empty_refuted"
   ],
   "note": "False: after an exception the next step goes on as if the initialization had succeeded; empty ends are undefined behaviour without assertions. Proved: what a successful initialization does; afterwards any number of steps runs without failing."
  },
  {
   "property": "C161",
   "status": "partial",
   "theorems": [
    "C161_rate_partial",
    "C161_ends_partial",
    "C161_others_partial",
    "C161_ramp_partial",
    "C161_ramp_refuted",
    "C161_asymmetry_refuted",
    "C161_stays_refuted"
   ],
   "note": "False: currentStrainRate is NaN at first, so the whole rate applies at once and initAccelTime is not used; other values of asymmetry strain twice; an end that should stay keeps the velocity it had. Proved: constant rate for any number of steps; linear rise if currentStrainRate is set to 0."
  },
  {
   "property": "C162",
   "status": "partial",
   "theorems": [
    "C162_stop_partial",
    "C162_compression_refuted",
    "C162_idle_refuted"
   ],
   "note": "False: in compression the whole strain is imposed in the first step; velocities are not reset, so straining goes on in idle iterations. Proved for tension up to the end."
  },
  {
   "property": "C163",
   "status": "partial",
   "theorems": [
    "C163_turn_partial",
    "C163_once_partial",
    "C163_overwritten_refuted"
   ],
   "note": "False: the reversed rate is overwritten at the next step and has no effect (C161_rate_partial holds with any limit). Proved: when it is noted, and that this happens once."
  },
  {
   "property": "C164",
   "status": "partial",
   "theorems": [
    "C164_stress_partial",
    "C164_tension_partial",
    "C164_interval_refuted"
   ],
   "note": "False: interval 0 is undefined behaviour. Proved for all other intervals."
  },
  {
   "property": "C165",
   "status": "partial",
   "theorems": [
    "C165_sizes_partial",
    "C165_goes_on_refuted",
    "C165_vanishes_refuted"
   ],
   "note": "False: after the last stress the rates of the cell are not reset, it goes on deforming and may get smaller than any size. Proved for any number of steps until then."
  },
  {
   "property": "C166",
   "status": "partial",
   "theorems": [
    "C166_step_partial",
    "C166_fails_refuted"
   ],
   "note": "False with the default characteristic length if the first body is missing (undefined) or has no bounding box (terminates). Proved for all actions that do not fail; cell with orthogonal edges along the axes."
  },
  {
   "property": "C167",
   "status": "partial",
   "theorems": [
    "C167_transition_partial",
    "C167_unmeasured_refuted",
    "C167_unstable_refuted",
    "C167_guess_refuted",
    "C167_no_stress_refuted"
   ],
   "note": "False: the predicted stress is compared, which for large cells is the goal at once; between updates the unbalanced force is not measured, its initial value passes the test. Proved for stored values."
  },
  {
   "property": "C168",
   "status": "partial",
   "theorems": [
    "C168_works_partial",
    "C168_effect_partial",
    "C168_limits_partial",
    "C168_size_partial",
    "C168_small_refuted"
   ],
   "note": "False: the limit is not divided by the size, so that edges longer than one may get too short. Proved: maximum rates; the limit for edges up to one."
  },
  {
   "property": "C169",
   "status": "partial",
   "theorems": [
    "C169_strain_partial",
    "C169_leaves_refuted"
   ],
   "note": "False without dynCell: 0.8 times the last rate is added whatever growDamping, so that the cell leaves the goal. Proved: exact in one step without damping and limits."
  },
  {
   "property": "C170",
   "status": "partial",
   "theorems": [
    "C170_guess_partial"
   ],
   "note": "False unless the edge is one: the difference is multiplied by 1 - 1/edge, proved in the theorem; with growDamping 0 and no growth before."
  },
  {
   "property": "C171",
   "status": "partial",
   "theorems": [
    "C171_hook_partial",
    "C171_stale_refuted",
    "C171_hooked_refuted"
   ],
   "note": "False: between updates the unbalanced force of the last update is used. Proved: strains always, stresses and unbalanced force at updates."
  },
  {
   "property": "C172",
   "status": "proved",
   "theorems": [
    "C172_love",
    "C172_contact",
    "C172_stiffness"
   ],
   "note": "All lists of contacts."
  },
  {
   "property": "C173",
   "status": "partial",
   "theorems": [
    "C173_data_partial",
    "C173_centre_partial",
    "C173_same_partial",
    "C173_degenerate_refuted",
    "C173_stale_refuted"
   ],
   "note": "False for vertices on a line (NaN, only logged) and after setNewVerticesOfFacet, which does not recompute anything. Proved for all other triples."
  },
  {
   "property": "C174",
   "status": "partial",
   "theorems": [
    "C174_nearest_partial",
    "C174_force_partial",
    "C174_shrink_partial",
    "C174_off_centre_refuted",
    "C174_on_edge_refuted",
    "C174_force_refuted",
    "C174_shrink_refuted"
   ],
   "note": "False if the origin of the facet is not its incentre, for a center on an edge (NaN), if a contact is asked for, and shrinkFactor is reset by one small facet. Proved for all facets made of vertices, without shrinking."
  },
  {
   "property": "C175",
   "status": "partial",
   "theorems": [
    "C175_box_partial",
    "C175_seen_partial"
   ],
   "note": "Boxes are proved in all cells; overlap for scenes that are not periodic (spheres with shifts added), without shrinking."
  },
  {
   "property": "C176",
   "status": "partial",
   "theorems": [
    "C176_box_partial",
    "C176_seen_partial",
    "C176_sheared_refuted"
   ],
   "note": "False in sheared cells: an exception. Proved otherwise."
  },
  {
   "property": "C177",
   "status": "proved",
   "theorems": [
    "C177_outside"
   ],
   "note": "All sizes, orientations given by unit quaternions."
  },
  {
   "property": "C178",
   "status": "partial",
   "theorems": [
    "C178_inside_partial",
    "C178_depth_partial",
    "C178_shift_refuted"
   ],
   "note": "False for shifted spheres of periodic scenes: the point of contact lacks the shift. Proved: normal and depth always, the point without a shift."
  },
  {
   "property": "C179",
   "status": "proved",
   "theorems": [
    "C179_sizes",
    "C179_strains",
    "C179_between",
    "C179_porosity",
    "C179_ball_partial",
    "C179_particles_partial"
   ],
   "note": "All walls, forces and bodies; positive sizes for logarithms. The volume of a ball is counted with 1.3333333 for 4/3, see C179_ball_partial."
  },
  {
   "property": "C180",
   "status": "partial",
   "theorems": [
    "C180_stress_partial",
    "C180_index_partial",
    "C180_index_refuted"
   ],
   "note": "False for wall numbers outside 0..5: memory outside of the array is read. Proved: all stresses and the mean."
  },
  {
   "property": "C181",
   "status": "partial",
   "theorems": [
    "C181_damping_partial",
    "C181_sizes_partial",
    "C181_lag_refuted",
    "C181_one_wall_refuted"
   ],
   "note": "False with damping (the rate does not stay at its goal, as sizes change) and where only one of two walls is activated (half of the rate). Proved: the effect of each step exactly, and sizes after any number of steps without damping."
  },
  {
   "property": "C182",
   "status": "partial",
   "theorems": [
    "C182_direction_partial",
    "C182_prediction_partial",
    "C182_stiffness_partial",
    "C182_kept_partial",
    "C182_past_refuted"
   ],
   "note": "False for walls that were moving: 8/10 of the last translation is kept at the goal, and with damping 1. Proved: direction, amount and stiffness, for walls that were at rest."
  },
  {
   "property": "C183",
   "status": "partial",
   "theorems": [
    "C183_bound_partial",
    "C183_isotropic_partial",
    "C183_exceeded_refuted"
   ],
   "note": "False: 1.35 max_vel after two steps with default damping. Proved: a bound for all histories, isotropy of maxima."
  },
  {
   "property": "C184",
   "status": "partial",
   "theorems": [
    "C184_reload_partial",
    "C184_jump_refuted"
   ],
   "note": "False where stiffness is not recounted at the next step, or walls were moving: neither stiffness nor last translation is saved. Proved: otherwise."
  },
  {
   "property": "C185",
   "status": "partial",
   "theorems": [
    "C185_direction_partial",
    "C185_otherwise_partial",
    "C185_volume_partial",
    "C185_growth_partial",
    "C185_fixed_clump_refuted",
    "C185_no_goal_refuted",
    "C185_zero_goal_refuted",
    "C185_limit_refuted",
    "C185_negative_refuted"
   ],
   "note": "False for fixed clumps, no axis in stress control, goal 0, tensile mean stress, and mean stress far below the goal. Proved: direction and limit for compressive goals, volume of free particles."
  },
  {
   "property": "C186",
   "status": "proved",
   "theorems": [
    "C186_work",
    "C186_internal"
   ],
   "note": "All modes of control; ids not changed after the first step (C188)."
  },
  {
   "property": "C187",
   "status": "proved",
   "theorems": [
    "C187_only_walls"
   ],
   "note": "All worlds in which the six walls exist and differ."
  },
  {
   "property": "C188",
   "status": "partial",
   "theorems": [
    "C188_ids_partial",
    "C188_ids_refuted"
   ],
   "note": "False for ids changed after the first step. Proved: those of the first step are used throughout."
  },
  {
   "property": "C189",
   "status": "proved",
   "theorems": [
    "C189_accounts",
    "C189_speed",
    "C189_radii",
    "C189_material"
   ],
   "note": "All configurations and histories. vAngle is not used by the code: velocities are exactly along the direction."
  },
  {
   "property": "C190",
   "status": "partial",
   "theorems": [
    "C190_number_partial",
    "C190_mass_partial",
    "C190_done_partial",
    "C190_max_mass_refuted"
   ],
   "note": "False for maxMass while maxParticles is positive, as by default. The rest is proved for all histories."
  },
  {
   "property": "C191",
   "status": "partial",
   "theorems": [
    "C191_grading_partial",
    "C191_tends_partial",
    "C191_safe_partial",
    "C191_percent_refuted",
    "C191_junk_refuted",
    "C191_reload_refuted"
   ],
   "note": "Proved with explicit bounds for strictly increasing curves that end at 1, without reloading. False for curves that do not end at 1 (the first value is not normalized, memory behind the array is read) and after reloading."
  },
  {
   "property": "C192",
   "status": "partial",
   "theorems": [
    "C192_overlap_partial",
    "C192_negative_refuted"
   ],
   "note": "False for a negative maxAttempt. Obstacles are those of the probe (C196)."
  },
  {
   "property": "C193",
   "status": "partial",
   "theorems": [
    "C193_circular_partial",
    "C193_boxed_partial",
    "C193_boxed_refuted"
   ],
   "note": "CircularFactory across its axis, for spheres not larger than the region; along it, and for BoxFactory, only centers are inside."
  },
  {
   "property": "C194",
   "status": "partial",
   "theorems": [
    "C194_failure_partial",
    "C194_silent_refuted"
   ],
   "note": "True with stopIfFailed. silent does not disable the factory."
  },
  {
   "property": "C195",
   "status": "partial",
   "theorems": [
    "C195_number_partial",
    "C195_mass_partial",
    "C195_endless_refuted"
   ],
   "note": "With a limit on the number or positive radii and density. Not for radius zero."
  },
  {
   "property": "C196",
   "status": "partial",
   "theorems": [
    "C196_sound_partial",
    "C196_box_partial",
    "C196_complete_partial",
    "C196_clear_partial",
    "C196_moved_refuted"
   ],
   "note": "Complete for bodies that did not move back along x beyond the margin; false otherwise."
  },
  {
   "property": "C197",
   "status": "partial",
   "theorems": [
    "C197_limits_partial",
    "C197_number_partial",
    "C197_nan_refuted",
    "C197_member_refuted"
   ],
   "note": "Exact for positions that are numbers and consistent clumps."
  },
  {
   "property": "C198",
   "status": "partial",
   "theorems": [
    "C198_stiffness_partial",
    "C198_defined_partial",
    "C198_symmetric_partial",
    "C198_once",
    "C198_flat_refuted"
   ],
   "note": "For two spheres; a flat body (radius 0) given second makes a contact without stiffness."
  },
  {
   "property": "C199",
   "status": "partial",
   "theorems": [
    "C199_conflict_partial",
    "C199_forgotten_refuted",
    "C199_restitution_partial",
    "C199_ratios_partial",
    "C199_es_refuted",
    "C199_es_alone_refuted"
   ],
   "note": "Exclusive options are rejected at the first attempt only; es is never used and alone is a null pointer."
  },
  {
   "property": "C200",
   "status": "proved",
   "theorems": [
    "C200_repel",
    "C200_hertz",
    "C200_hertz_linear",
    "C200_apart",
    "C200_apart_linear",
    "C200_lost",
    "C200_lost_linear",
    "C200_applied",
    "C200_applied_linear"
   ],
   "note": "For both laws, any damping and velocity."
  },
  {
   "property": "C201",
   "status": "partial",
   "theorems": [
    "C201_adhesion_partial",
    "C201_adhesion_refuted"
   ],
   "note": "Within twice the adhesion force, within it without damping; false with damping."
  },
  {
   "property": "C202",
   "status": "partial",
   "theorems": [
    "C202_coulomb_partial",
    "C202_coulomb_linear_partial",
    "C202_adhesive_partial",
    "C202_tension_refuted",
    "C202_viscous_refuted"
   ],
   "note": "The elastic part obeys the limit; with viscous shear force the sum does not; with adhesion tension raises the limit."
  },
  {
   "property": "C203",
   "status": "proved",
   "theorems": [
    "C203_balance",
    "C203_balance_linear"
   ],
   "note": "For any geometry (Mindlin), for spheres in contact (HertzWithLinearShear and periodic)."
  },
  {
   "property": "C204",
   "status": "partial",
   "theorems": [
    "C204_damping",
    "C204_not_asked",
    "C204_elastic_partial",
    "C204_work_partial",
    "C204_friction_partial",
    "C204_friction_refuted"
   ],
   "note": "Damping always; friction if the force before is within the limit, false otherwise."
  },
  {
   "property": "C205",
   "status": "partial",
   "theorems": [
    "C205_linear_partial",
    "C205_normal_partial",
    "C205_recontact_refuted"
   ],
   "note": "HertzWithLinearShear, and the normal force of Mindlin; the shear force of Mindlin comes back."
  },
  {
   "property": "C206",
   "status": "partial",
   "theorems": [
    "C206_linear_partial",
    "C206_mindlin_partial",
    "C206_cycle_refuted"
   ],
   "note": "HertzWithLinearShear with nonLin=0, Mindlin at constant overlap; false if the overlap changes."
  },
  {
   "property": "C207",
   "status": "partial",
   "theorems": [
    "C207_bending_partial",
    "C207_twisting_partial",
    "C207_none_partial",
    "C207_bending_refuted"
   ],
   "note": "If the normal force is not zero."
  },
  {
   "property": "C208",
   "status": "partial",
   "theorems": [
    "C208_tangent_partial",
    "C208_energy_partial",
    "C208_linear_refuted"
   ],
   "note": "For Mindlin; HertzWithLinearShear reports zero."
  },
  {
   "property": "C209",
   "status": "partial",
   "theorems": [
    "C209_adhesive_partial",
    "C209_mark_partial",
    "C209_sliding_partial",
    "C209_empty_partial",
    "C209_other_refuted",
    "C209_stale_refuted",
    "C209_flag_refuted"
   ],
   "note": "Counts of marks, which may be out of date or wrong; other contacts are a null pointer."
  },
  {
   "property": "C210",
   "status": "partial",
   "theorems": [
    "C210_normal_partial",
    "C210_shear_refuted"
   ],
   "note": "Normal force only; there is no shear force."
  },
  {
   "property": "C211",
   "status": "proved",
   "theorems": [
    "C211_sum"
   ],
   "note": ""
  },
  {
   "property": "C212",
   "status": "partial",
   "theorems": [
    "C212_once_partial",
    "C212_times_partial",
    "C212_python_refuted"
   ],
   "note": "Only if summed once after the last reset; k times gives k times the permanent value."
  },
  {
   "property": "C213",
   "status": "partial",
   "theorems": [
    "C213_single_partial",
    "C213_single_refuted"
   ],
   "note": "Before summing."
  },
  {
   "property": "C214",
   "status": "partial",
   "theorems": [
    "C214_force_partial",
    "C214_torque_refuted"
   ],
   "note": "Forces only; the torque asked for is the force."
  },
  {
   "property": "C215",
   "status": "proved",
   "theorems": [
    "C215_permanent",
    "C215_out_of_range"
   ],
   "note": ""
  },
  {
   "property": "C216",
   "status": "partial",
   "theorems": [
    "C216_agree_partial",
    "C216_agree_refuted"
   ],
   "note": "Without permanent values, or if they are summed once."
  },
  {
   "property": "C217",
   "status": "partial",
   "theorems": [
    "C217_covered_partial",
    "C217_seen_partial",
    "C217_first_refuted",
    "C217_lost_refuted"
   ],
   "note": "All bodies but that of id 0; forgotten with the next addition."
  },
  {
   "property": "C218",
   "status": "proved",
   "theorems": [
    "C218_nodes",
    "C218_facets"
   ],
   "note": "Triangles with three different corners, into any scene without connected nodes."
  },
  {
   "property": "C219",
   "status": "proved",
   "theorems": [
    "C219_edges"
   ],
   "note": "As C218; that facets have their three connections is in C218_facets."
  },
  {
   "property": "C220",
   "status": "partial",
   "theorems": [
    "C220_motion_partial",
    "C220_motion_refuted"
   ],
   "note": "Imported meshes of any triangles; false for meshes made by hand in which no connection begins at the first node of a facet."
  },
  {
   "property": "C221",
   "status": "proved",
   "theorems": [
    "C221_listed"
   ],
   "note": "All scenes and contacts."
  },
  {
   "property": "C222",
   "status": "proved",
   "theorems": [
    "C222_once"
   ],
   "note": "Nodes have no contacts (they are never bounded), subdomains are numbered from 1."
  },
  {
   "property": "C223",
   "status": "partial",
   "theorems": [
    "C223_own_partial",
    "C223_own_refuted"
   ],
   "note": "If facets and connections belong to one process as a whole, which nothing checks."
  },
  {
   "property": "C224",
   "status": "partial",
   "theorems": [
    "C224_kept_partial",
    "C224_kept_refuted"
   ],
   "note": "If facets and connections belong to one process as a whole, which nothing checks."
  },
  {
   "property": "C225",
   "status": "partial",
   "theorems": [
    "C225_bounded_partial",
    "C225_shapes_partial",
    "C225_bounded_refuted"
   ],
   "note": "False for connections of facets of workers, unbounded when the facet is made and bounded after merging."
  },
  {
   "property": "C226",
   "status": "proved",
   "theorems": [
    "C226_damping",
    "C226_springs",
    "C226_matchmakers",
    "C226_kept",
    "C226_mixed",
    "C226_order"
   ],
   "note": ""
  },
  {
   "property": "C227",
   "status": "partial",
   "theorems": [
    "C227_defined_partial",
    "C227_defined_refuted"
   ],
   "note": "False for two bodies without mass which are damped."
  },
  {
   "property": "C228",
   "status": "proved",
   "theorems": [
    "C228_same",
    "C228_erased"
   ],
   "note": ""
  },
  {
   "property": "C229",
   "status": "partial",
   "theorems": [
    "C229_dashpot_partial",
    "C229_parameters_partial",
    "C229_coefficient_refuted"
   ],
   "note": "The coefficient is larger by the ratio of the sum of radii to the distance."
  },
  {
   "property": "C230",
   "status": "partial",
   "theorems": [
    "C230_repels_partial",
    "C230_approaching_partial",
    "C230_pulls_refuted"
   ],
   "note": "False for bodies which separate fast."
  },
  {
   "property": "C231",
   "status": "partial",
   "theorems": [
    "C231_apart_partial",
    "C231_apart_refuted"
   ],
   "note": "False with damping."
  },
  {
   "property": "C232",
   "status": "partial",
   "theorems": [
    "C232_friction_partial",
    "C232_work_partial",
    "C232_friction_refuted"
   ],
   "note": "Friction is relative to the normal force with damping."
  },
  {
   "property": "C233",
   "status": "partial",
   "theorems": [
    "C233_energy_partial",
    "C233_sum_partial",
    "C233_energy_refuted"
   ],
   "note": "False with damping, which is counted as elastic."
  },
  {
   "property": "C234",
   "status": "proved",
   "theorems": [
    "C234_balance"
   ],
   "note": ""
  },
  {
   "property": "C235",
   "status": "partial",
   "theorems": [
    "C235_slope_partial",
    "C235_found_partial",
    "C235_level_refuted",
    "C235_corner_refuted",
    "C235_zero_refuted"
   ],
   "note": "The range is not checked for constant functions; the assertion fails where the line crosses the axis."
  },
  {
   "property": "C236",
   "status": "proved",
   "theorems": [
    "C236_area",
    "C236_lengths",
    "C236_derivative",
    "C236_step"
   ],
   "note": ""
  },
  {
   "property": "C237",
   "status": "partial",
   "theorems": [
    "C237_found_partial",
    "C237_inverse_partial",
    "C237_over_partial",
    "C237_end_refuted",
    "C237_negative_refuted",
    "C237_corner_refuted"
   ],
   "note": "False for the last point, for negative areas and corners on the axis; functions below the axis are not covered."
  },
  {
   "property": "C238",
   "status": "partial",
   "theorems": [
    "C238_inverse_partial",
    "C238_total_partial",
    "C238_zero_refuted",
    "C238_negative_refuted",
    "C238_corner_refuted"
   ],
   "note": "For functions above the axis."
  },
  {
   "property": "C239",
   "status": "proved",
   "theorems": [
    "C239_sanitized",
    "C239_again",
    "C239_empty"
   ],
   "note": ""
  },
  {
   "property": "C240",
   "status": "partial",
   "theorems": [
    "C240_complete_partial",
    "C240_missed_refuted"
   ],
   "note": "False unless the lower corner of the grid has equal coordinates."
  },
  {
   "property": "C241",
   "status": "partial",
   "theorems": [
    "C241_known_partial",
    "C241_cells_partial",
    "C241_erased_partial",
    "C241_erased_refuted"
   ],
   "note": "A new interaction of spheres sharing exactly one cell is erased in the same step."
  },
  {
   "property": "C242",
   "status": "proved",
   "theorems": [
    "C242_errors"
   ],
   "note": ""
  },
  {
   "property": "C243",
   "status": "partial",
   "theorems": [
    "C243_quiet_partial",
    "C243_shortened_refuted"
   ],
   "note": "False if the time step shrinks between the motion and the collider; for grids with the corner on the diagonal."
  },
  {
   "property": "C244",
   "status": "proved",
   "theorems": [
    "C244_list"
   ],
   "note": ""
  },
  {
   "property": "C245",
   "status": "partial",
   "theorems": [
    "C245_near_partial",
    "C245_far_refuted"
   ],
   "note": "False unless the lower corner of the grid has equal coordinates."
  },
  {
   "property": "C246",
   "status": "partial",
   "theorems": [
    "C246_order_partial",
    "C246_mixed_partial",
    "C246_stiffness_partial",
    "C246_wall_refuted"
   ],
   "note": "False for bodies without radius: the stiffness is negative. Same labels must mean same materials."
  },
  {
   "property": "C247",
   "status": "partial",
   "theorems": [
    "C247_iteration_partial",
    "C247_threshold_refuted"
   ],
   "note": "False: the threshold only makes an error message, contacts remain cohesive."
  },
  {
   "property": "C248",
   "status": "proved",
   "theorems": [
    "C248_law",
    "C248_history",
    "C248_convex",
    "C248_unload",
    "C248_shear"
   ],
   "note": ""
  },
  {
   "property": "C249",
   "status": "proved",
   "theorems": [
    "C249_point",
    "C249_periodic",
    "C249_silent"
   ],
   "note": ""
  },
  {
   "property": "C250",
   "status": "partial",
   "theorems": [
    "C250_mean_partial",
    "C250_parameters_partial",
    "C250_zero_refuted"
   ],
   "note": "False if one of the values is zero."
  },
  {
   "property": "C251",
   "status": "partial",
   "theorems": [
    "C251_accepted_partial",
    "C251_rejected_partial",
    "C251_rejected_refuted",
    "C251_null_refuted"
   ],
   "note": "False if k1 of one material is zero, and if neither body is a sphere."
  },
  {
   "property": "C252",
   "status": "partial",
   "theorems": [
    "C252_virgin_partial",
    "C252_limit_partial",
    "C252_jump_refuted",
    "C252_facet_refuted"
   ],
   "note": "False if the plastic limit is passed in one step, and for a sphere and another shape, where the first force is zero."
  },
  {
   "property": "C253",
   "status": "partial",
   "theorems": [
    "C253_history_partial",
    "C253_stiffness_partial",
    "C253_unload_partial",
    "C253_pull_partial",
    "C253_hold_refuted"
   ],
   "note": "The limit of attraction only holds while bodies move apart."
  },
  {
   "property": "C254",
   "status": "partial",
   "theorems": [
    "C254_reversible_partial",
    "C254_steps_refuted"
   ],
   "note": "False: the stiffness used for the plastic overlap is that of the step before."
  },
  {
   "property": "C255",
   "status": "partial",
   "theorems": [
    "C255_law_partial",
    "C255_balance_partial",
    "C255_erased_partial",
    "C255_viscous_refuted"
   ],
   "note": "The viscous tangential force is not limited."
  },
  {
   "property": "C256",
   "status": "proved",
   "theorems": [
    "C256_history",
    "C256_largest"
   ],
   "note": ""
  },
  {
   "property": "C257",
   "status": "partial",
   "theorems": [
    "C257_breaks_partial",
    "C257_kept_partial",
    "C257_last_partial",
    "C257_last_refuted"
   ],
   "note": "False just at the last point, where there is no force."
  },
  {
   "property": "C258",
   "status": "partial",
   "theorems": [
    "C258_tension_partial",
    "C258_within_partial",
    "C258_factor_partial",
    "C258_stiffening_refuted"
   ],
   "note": "False for curves which get stiffer than unloading."
  },
  {
   "property": "C259",
   "status": "partial",
   "theorems": [
    "C259_table_partial",
    "C259_shift_partial",
    "C259_straight_partial",
    "C259_added_partial",
    "C259_same_partial",
    "C259_other_partial",
    "C259_twist_refuted"
   ],
   "note": "False for double twists of type 0: points may be out of order."
  },
  {
   "property": "C260",
   "status": "partial",
   "theorems": [
    "C260_order_partial",
    "C260_order_refuted",
    "C260_label_refuted"
   ],
   "note": "False for materials of the same diameter or label."
  },
  {
   "property": "C261",
   "status": "partial",
   "theorems": [
    "C261_accepted_partial",
    "C261_area_partial",
    "C261_strain_refuted",
    "C261_twist_refuted",
    "C261_empty_refuted",
    "C261_stale_refuted"
   ],
   "note": "False: zero strain, empty tables and changed diameters are not noticed."
  },
  {
   "property": "C262",
   "status": "proved",
   "theorems": [
    "C262_point",
    "C262_periodic",
    "C262_direction"
   ],
   "note": ""
  },
  {
   "property": "C263",
   "status": "proved",
   "theorems": [
    "C263_pulled",
    "C263_compressed"
   ],
   "note": ""
  },
  {
   "property": "C264",
   "status": "partial",
   "theorems": [
    "C264_elastic_partial",
    "C264_flags_partial",
    "C264_jump_refuted"
   ],
   "note": "False once tension was plastic: compression starts with the force of its creep curve."
  },
  {
   "property": "C265",
   "status": "partial",
   "theorems": [
    "C265_pulled_partial",
    "C265_compressed_partial",
    "C265_stiff_refuted"
   ],
   "note": "False in compression when tension is stiffer: creep is a fraction of the stiffness of tension."
  },
  {
   "property": "C266",
   "status": "partial",
   "theorems": [
    "C266_breaks_partial",
    "C266_only_partial",
    "C266_forever_partial",
    "C266_silent_partial",
    "C266_erased_partial",
    "C266_leaves_partial",
    "C266_overlap_refuted"
   ],
   "note": "False after plastic compression: erased while the spheres overlap."
  },
  {
   "property": "C267",
   "status": "partial",
   "theorems": [
    "C267_kept_partial",
    "C267_slips_partial",
    "C267_breaks_partial",
    "C267_amplified_refuted",
    "C267_adheres_refuted"
   ],
   "note": "False: breaking may multiply the force, and cohesion broken by twist or bending leaves the adhesion."
  },
  {
   "property": "C268",
   "status": "partial",
   "theorems": [
    "C268_torn_partial",
    "C268_fails_partial",
    "C268_elastic_partial",
    "C268_sound_partial",
    "C268_bending_refuted"
   ],
   "note": "False for the bending moment when shear or twist broke the cohesion."
  },
  {
   "property": "C269",
   "status": "proved",
   "theorems": [
    "C269_odd",
    "C269_elastic",
    "C269_plastic",
    "C269_breaks"
   ],
   "note": "Plastic twist while the moment and the twist have the same sense."
  },
  {
   "property": "C270",
   "status": "partial",
   "theorems": [
    "C270_sym_partial",
    "C270_stiff_partial",
    "C270_limits_partial",
    "C270_default_refuted"
   ],
   "note": "False for materials with moduli zero, the default: 0/0."
  },
  {
   "property": "C271",
   "status": "proved",
   "theorems": [
    "C271_balance",
    "C271_applied"
   ],
   "note": ""
  },
  {
   "property": "C272",
   "status": "partial",
   "theorems": [
    "C272_round_trip_partial",
    "C272_assigned_partial",
    "C272_rejected_partial",
    "C272_lost_refuted"
   ],
   "note": "False after an error: the former slaves are cleared first."
  },
  {
   "property": "C273",
   "status": "partial",
   "theorems": [
    "C273_schedule_partial",
    "C273_schedule_refuted"
   ],
   "note": "Proved if engines of different groups may be exchanged; false otherwise."
  },
  {
   "property": "C274",
   "status": "proved",
   "theorems": [
    "C274_once",
    "C274_prefix",
    "C274_completes",
    "C274_inactive"
   ],
   "note": ""
  },
  {
   "property": "C275",
   "status": "partial",
   "theorems": [
    "C275_registered_partial",
    "C275_order_partial",
    "C275_complete_partial",
    "C275_left_refuted"
   ],
   "note": "At most a hundred rounds: proved if each class is within a hundred bases of a registered one; false beyond."
  },
  {
   "property": "C276",
   "status": "proved",
   "theorems": [
    "C276_child"
   ],
   "note": "Hierarchies without cycles, as those of C++."
  },
  {
   "property": "C277",
   "status": "partial",
   "theorems": [
    "C277_questions_partial",
    "C277_plugins_refuted"
   ],
   "note": "Bases are unchanged; unknown names that are asked about are added to the list."
  },
  {
   "property": "C278",
   "status": "proved",
   "theorems": [
    "C278_child_classes"
   ],
   "note": ""
  },
  {
   "property": "C279",
   "status": "partial",
   "theorems": [
    "C279_database_partial",
    "C279_ladder_refuted",
    "C279_unfactored_refuted"
   ],
   "note": "Proved if bases of plugins are plugins or known to the code; false otherwise."
  },
  {
   "property": "C280",
   "status": "partial",
   "theorems": [
    "C280_found_partial",
    "C280_placed_partial",
    "C280_axis_refuted",
    "C280_turned_refuted"
   ],
   "note": "False for axes longer than one and for rotated facets. Code compiled only with FACET_TOPO."
  },
  {
   "property": "C281",
   "status": "partial",
   "theorems": [
    "C281_vertices_partial",
    "C281_chain_refuted"
   ],
   "note": "Proved if touching is transitive; false otherwise."
  },
  {
   "property": "C282",
   "status": "proved",
   "theorems": [
    "C282_search",
    "C282_count"
   ],
   "note": "Count for facets with three different vertices."
  },
  {
   "property": "C283",
   "status": "partial",
   "theorems": [
    "C283_edges_partial",
    "C283_marked_partial",
    "C283_own_refuted",
    "C283_always_own_refuted",
    "C283_flat_refuted"
   ],
   "note": "False: the number of the facet itself is stored."
  },
  {
   "property": "C284",
   "status": "partial",
   "theorems": [
    "C284_appended_partial",
    "C284_kept_open_partial",
    "C284_numbered_partial",
    "C284_emptied_refuted",
    "C284_one_file_refuted"
   ],
   "note": "False with truncation for recorders that close the file, and with numbers of steps for those that do not."
  },
  {
   "property": "C285",
   "status": "partial",
   "theorems": [
    "C285_force_partial",
    "C285_torque_partial",
    "C285_sum_partial",
    "C285_reversed_refuted",
    "C285_pusher_refuted"
   ],
   "note": "False: moments of forces have the wrong sign."
  },
  {
   "property": "C286",
   "status": "partial",
   "theorems": [
    "C286_spheres_partial",
    "C286_flat_partial",
    "C286_other_partial",
    "C286_shear_partial",
    "C286_order_partial",
    "C286_other_refuted"
   ],
   "note": "False for geometries other than spheres."
  },
  {
   "property": "C287",
   "status": "partial",
   "theorems": [
    "C287_curve_partial",
    "C287_deep_partial",
    "C287_falling_refuted",
    "C287_singular_refuted"
   ],
   "note": "Proved for fractions below one."
  },
  {
   "property": "C288",
   "status": "partial",
   "theorems": [
    "C288_shallow_partial",
    "C288_result_partial",
    "C288_steady_partial",
    "C288_vertical_refuted"
   ],
   "note": "The distance to the solution itself is not bounded; false where the tangent is vertical."
  },
  {
   "property": "C289",
   "status": "partial",
   "theorems": [
    "C289_removed_partial",
    "C289_fresh_partial",
    "C289_set_partial",
    "C289_deep_partial",
    "C289_shallow_partial",
    "C289_new_partial",
    "C289_balance_partial",
    "C289_reload_refuted"
   ],
   "note": "False after loading."
  },
  {
   "property": "C290",
   "status": "proved",
   "theorems": [
    "C290_data",
    "C290_cell",
    "C290_clips"
   ],
   "note": "Cells are those around the points for points within the grid; polygons are given as predicates."
  },
  {
   "property": "C291",
   "status": "partial",
   "theorems": [
    "C291_once_partial",
    "C291_row_partial",
    "C291_sums_partial",
    "C291_row_refuted",
    "C291_outside_refuted"
   ],
   "note": "False across rows of cells and out of the grid."
  },
  {
   "property": "C292",
   "status": "partial",
   "theorems": [
    "C292_between_partial",
    "C292_weight_partial",
    "C292_area_partial",
    "C292_none_refuted",
    "C292_stale_refuted",
    "C292_area_refuted"
   ],
   "note": "False after parameters change or with a threshold other than 3."
  }
 ]
}