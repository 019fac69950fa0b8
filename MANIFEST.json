{"claims": [
 {"property": "C01", "status": "proved", "theorems": ["C01_isSubKey_exact", "C01_getSubKeys_exact", "C01_getSubKeys_order", "C01_getImmediateSubDicts_exact", "C01_getImmediateSubDicts_NoDup", "C01_getImmediateSubKeys_exact", "C01_getImmediateSubKeys_NoDup", "C01_split_rejoin", "C01_split_levels", "C01_split_top", "C01_parent_is_ancestor"], "note": ""},
 {"property": "C02", "status": "partial", "theorems": ["C02_roundtrip_partial", "C02_refuted"], "note": "Full claim refuted (C02_refuted): a dictionary of the same name at the same depth in another parent is merged into the previous parent. Proved for all writable definitions whose dictionary names are unambiguous."},
 {"property": "C03", "status": "partial", "theorems": ["C03_tree_exact", "C03_duplicate_rejected", "C03_parse_sound_partial", "C03_refuted"], "note": "Exactness and duplicate rejection proved for every tree and every layout; converse proved for every command-free text up to lines after a stray closing bracket, which are silently dropped (C03_refuted)."},
 {"property": "C04", "status": "proved", "theorems": ["C04_terminates", "C04_acyclic_not_rejected", "C04_ok_only_if_acyclic"], "note": ""},
 {"property": "C05", "status": "partial", "theorems": ["C05_spec_functional", "C05_lookup_partial", "C05_lookup_any_key", "C05_refuted", "C05_reads_do_not_write", "C05_store", "C05_usage_exact"], "note": "Look-up order, state preservation and exact usage tracking proved for all histories of reads/writes/removals. Refuted corner: a key that is itself the name of a dictionary declaring a class hides the class default of its enclosing dictionary; C05_lookup_partial excludes exactly that case, C05_lookup_any_key covers every key with the code's actual rule."},
 {"property": "C06", "status": "proved", "theorems": ["C06_relative_first", "C06_usage", "C06_try_get", "C06_subkeys", "C06_subkeys_relative", "C06_dict_name"], "note": ""},
 {"property": "C07", "status": "partial", "theorems": ["C07_create_exact_partial", "C07_renamed_spec", "C07_rename_refuted", "C07_overwrite_refuted"], "note": "Full claim refuted twice (text replacement of the parent path anywhere in the key; block lines silently overwrite existing keys). Proved exactly for keys in which the parent path does not re-occur."},
 {"property": "C08", "status": "partial", "theorems": ["C08_no_drift_partial", "C08_disabled", "C08_refuted", "C08_disabled_include_refuted"], "note": "n-fold resampling characterised exactly (values, draw numbers, frame) when means/deviations are not themselves probabilistic; refuted for a K_mean that has its own K_mean_stdDev (drifts) and for disabled sampling with included files (still sampled). random.gauss is an oracle stream of standard normals; float/str conversions are parameters."},
 {"property": "C09", "status": "partial", "theorems": ["C09_transparent_partial", "C09_proviso_necessary", "C09_refuted", "C09_mutable_arguments_partial", "C09_mutable_arguments_refuted", "C09_state_lists"], "note": "Proved for every call history when the key comparison is sound and results are not mutated; the proviso is shown necessary. Refuted when the state comparison identifies different states (composite states of different length compare equal when one is a prefix) and when an argument is mutated in place."},
 {"property": "C10", "status": "partial", "theorems": ["C10_untouched_partial", "C10_repeat_partial", "C10_refuted", "C10_roll_angle"], "note": "getTotalAOA/getLocalFrameAirVel proved independent of history; refuted: getAOA/getAOSS change the cached air velocity, so later queries at the same state differ."},
 {"property": "C11", "status": "proved", "theorems": ["C11_rigid", "C11_compose", "C11_undo", "C11_negation", "C11_side_effect", "C11_rodrigues", "C11_division"], "note": "Over the reals; zero quaternion excluded (Python raises). Floating-point rounding not modelled."},
 {"property": "C12", "status": "proved", "theorems": ["C12_vector_space", "C12_dot", "C12_cross", "C12_normalize", "C12_indexing"], "note": "Over the reals. Text constructor not covered here."},
 {"property": "C13", "status": "proved", "theorems": ["C13_transfer", "C13_chain", "C13_sum", "C13_difference"], "note": "Over the reals, for any chain of transfers and any number of systems."},
 {"property": "C14", "status": "partial", "theorems": ["C14_combine_partial", "C14_order_grouping", "C14_about_point", "C14_rejects", "C14_add_partial", "C14_refuted"], "note": "Refuted: + and combineInertias detect the receiver in the list by value, so two equal bodies are counted once. Proved for all lists of bodies as counted (receiver listed or distinct), order/grouping independence, combination about a point, rejection of other reference points."},
 {"property": "C15", "status": "proved", "theorems": ["C15_total", "C15_piecewise_linear", "C15_nodes", "C15_between", "C15_monotone", "C15_weights"], "note": "Over the reals; the binary search itself is modelled. No division by zero even for tables with repeated nodes."},
 {"property": "C16", "status": "proved", "theorems": ["C16_inverse", "C16_ends", "C16_reproduces", "C16_finite_difference", "C16_straight_line"], "note": "Over the reals; the matrix inverse is the exact one (proved two-sided inverse). The finite-difference wrapper is exact for straight lines and takes the difference quotients as slopes."},
 {"property": "C17", "status": "proved", "theorems": ["C17_consistent", "C17_check_exact", "C17_textbook", "C17_time", "C17_quadrature", "C17_linear", "C17_order_conditions"], "note": "Over the reals, with the tableaus transcribed exactly as rationals and the 1e-16 zero replacement kept. Order conditions (up to order 5) are proved for every built-in method except RK78, for which only consistency (row sums) and the general quadrature/linear theorems' premises up to consistency are checked."},
 {"property": "C18", "status": "partial", "theorems": ["C18_step_partial", "C18_builtin_partial", "C18_huge_target_refuted", "C18_refuted"], "note": "Proved for every right-hand side and every value type for the four built-in adaptive methods, given minStep > 0 and 20*target < 1e7. Refuted corners: a target error >= 500000 raises (no attempt is made), and a rejected attempt whose error is exactly 10000000 is not reported to the discard callback."},
 {"property": "C19", "status": "partial", "theorems": ["C19_limits_partial", "C19_limits_pid", "C19_unlimited", "C19_refuted", "C19_zero_error_refuted", "C19_elementary", "C19_pid_input"], "note": "Refuted: the safety factor is multiplied after limiting, so at the minimum step the proposal is 0.9 * minimum; a zero error estimate raises ZeroDivisionError in the elementary controller. Proved: bounds scaled by the safety factor, the exact claim for the PID controller (safety factor 1), and no limiting of admissible wishes."},
 {"property": "C20", "status": "partial", "theorems": ["C20_reuse_point_partial", "C20_quadrature_partial", "C20_refuted", "C20_not_fsal"], "note": "Refuted when the state is modified between steps (the stored derivative is never reset). Proved for every system size: the stored derivative is the derivative at the end of the step, at a value that differs from the result by 1e-16*dt*k (zero replacement); re-use is invisible in whole simulations when the derivative depends on time only, for all edits and policies."},
 {"property": "C21", "status": "partial", "theorems": ["C21_read_partial", "C21_construct", "C21_norm", "C21_derivatives", "C21_shared_names_refuted", "C21_truncated_refuted", "C21_names_refuted"], "note": "Proved for every number of variables and every sequence of additions, assignments and arithmetic on one state (names must be new, not names of list methods; operands of equal size); construction with names is characterised exactly; the norm is a norm. Refuted: derived states share one name map, so adding variables to two of them mixes up names; operands of different size are cut silently; addStateVariable checks no names; assignment to unknown names is dropped."},
 {"property": "C22", "status": "partial", "theorems": ["C22_vectors_partial", "C22_constant", "C22_orientation_swapped", "C22_refuted"], "note": "Refuted for the orientation: weights are exchanged (C22_orientation_swapped). Vectors proved for every weight; constant states proved."},
 {"property": "C23", "status": "proved", "theorems": ["C23_once", "C23_fires_when_due", "C23_subscribe", "C23_estimate", "C23_burnout"], "note": "Proved for any history of checks and any number of subscriptions; burnout events while the lowest stage's shut-off time is unchanged."},
 {"property": "C24", "status": "partial", "theorems": ["C24_drops_lowest", "C24_ignites_two_stages", "C24_refuted", "C24_double_drop_refuted", "C24_detached_partial", "C24_simulated_partial", "C24_not_simulated", "C24_detached_refuted"], "note": "Drop order proved for any number of stages. The ignition claim holds with two stages and is refuted for every rocket with three or more (the top stage is ignited); burnout triggers can drop two stages in one check; the simulated dropped stage is chosen by stage number."},
 {"property": "C25", "status": "partial", "theorems": ["C25_each_propellant", "C25_centre", "C25_burn_factor", "C25_total_partial", "C25_refuted"], "note": "Proved for each propellant of every well-formed table and any ignition time; the motor's total is their sum only if the two inertias differ (equal inertias are counted once): refuted in general, mass can even grow."},
 {"property": "C26", "status": "partial", "theorems": ["C26_after_burnout", "C26_while_burning", "C26_before_ignition", "C26_unlit_partial", "C26_refuted", "C26_impulse"], "note": "Thrust while burning, after burnout and total impulse proved for every table. Refuted before ignition: thrust is the first table value (partial: zero if the table starts at zero)."},
 {"property": "C27", "status": "partial", "theorems": ["C27_never_below", "C27_bottom_velocity_partial", "C27_rotating_refuted", "C27_released", "C27_held", "C27_force_partial", "C27_refuted", "C27_backwards_refuted", "C27_turned_refuted"], "note": "Never below, release and held clauses proved for every history; the direction-of-force clause is refuted for tilted rails (frames are mixed) and for a turning earth (C27_turned_refuted: the force keeps the initial direction of the rail), the bottom-velocity clause for a rotating earth."},
 {"property": "C28", "status": "proved", "theorems": ["C28_flat", "C28_flat_decreases", "C28_sphere", "C28_oblate_symmetric", "C28_oblate_limit", "C28_oblate_potential", "C28_oblate_inward", "C28_body_frame"], "note": ""},
 {"property": "C29", "status": "partial", "theorems": ["C29_independent", "C29_positive", "C29_continuous_partial", "C29_hydrostatic", "C29_below_refuted", "C29_tabulated"], "note": "Proved above -2000 m geopotential altitude: every query answered independently of history, positive, continuous across layers, in hydrostatic balance. Refuted below -2000 m, where the layer index wraps to the topmost layer (C29_below_refuted)."},
 {"property": "C30", "status": "proved", "theorems": ["C30_bounded", "C30_profile", "C30_plateau", "C30_no_jumps", "C30_symmetric"], "note": "Bounded, zero outside, exact on the plateau, Lipschitz everywhere, symmetric; a zero blend distance gives the step asked for (Example C30_step)."},
 {"property": "C31", "status": "partial", "theorems": ["C31_answers", "C31_function_partial", "C31_continuous", "C31_back_refuted", "C31_two", "C31_one", "C31_three_refuted"], "note": "Complete description of every answer for every query history (C31_answers). It is a function of time when queries never go back to an earlier sampling interval; refuted for queries going back in time (extrapolated from the latest samples) and for the third component, which is a copy of the second."},
 {"property": "C32", "status": "partial", "theorems": ["C32_outputs", "C32_zero_step", "C32_arrays", "C32_schedule_refuted"], "note": "Outputs, integral clamping, zero step and array errors proved for all histories. Refuted: a gain-schedule update silently drops the integral limit."},
 {"property": "C33", "status": "partial", "theorems": ["C33_limits_partial", "C33_motion", "C33_converges", "C33_repeat", "C33_past", "C33_rest_refuted"], "note": "Limits, approach, repeat queries proved. Refuted: with limits that exclude the rest position the deflection starts outside them."},
 {"property": "C34", "status": "partial", "theorems": ["C34_step", "C34_rate", "C34_every_step", "C34_tiny_refuted"], "note": "Step adjustment and schedule proved for every rate, step and number of steps, for steps above 1e-10 s; refuted below (absolute tolerance)."},
 {"property": "C35", "status": "partial", "theorems": ["C35_table_partial", "C35_rectangular_partial", "C35_lookup", "C35_time_column_refuted", "C35_default_refuted"], "note": "Proved for all histories except logging values directly into Time(s) and giving a column called default its own fill value; both are refuted with witnesses."},
 {"property": "C36", "status": "partial", "theorems": ["C36_discard_partial", "C36_adaptive_step_partial", "C36_reuse_refuted", "C36_stages_refuted"], "note": "Proved for methods without derivative reuse and a single simulated body; deleting one row too many with a reused derivative and deleting rows of other stages are refuted."},
 {"property": "C37", "status": "partial", "theorems": ["C37_fixed_end", "C37_already_over", "C37_stops", "C37_adaptive_end", "C37_event_step", "C37_detached_step_refuted"], "note": "Proved for fixed-step methods; adaptive methods end within a proved slack of the end time; a stage detached during the shortened last step is simulated with that step size (refuted)."},
 {"property": "C38", "status": "proved", "theorems": ["C38_unique", "C38_fails_late", "C38_alone", "C38_last_attempt"], "note": "File system accesses (existence check, mkdir) are atomic steps in an arbitrary interleaving with other simulations and other programs that create paths; deletion is not modelled. C38_last_attempt records that a simulation that succeeds at its 51st attempt still raises and leaves an empty folder."},
 {"property": "C39", "status": "proved", "theorems": ["C39_schedule", "C39_completes", "C39_results"], "note": "ray.wait returns one arbitrary running job; the worker computation is a function of the run number (its seed comes from one generator, in order). A failing worker makes the whole run raise (C39_completes)."},
 {"property": "C40", "status": "partial", "theorems": ["C40_comparison_partial", "C40_nan_refuted", "C40_exit_partial", "C40_missing_refuted", "C40_constant_refuted"], "note": "Refuted as stated: a NaN result passes where 0 is expected, a sweep over a missing column raises TypeError instead of recording a failure, and a single expected value for a refined sweep is not compared with the last point. The partial theorems give the exact verdict: comparison of the parsed value against the expected one within the tolerance, and the exit status as a function of the cases' outcomes."},
 {"property": "C41", "status": "proved", "theorems": ["C41_refinement"], "note": "Full statement."},
 {"property": "C42", "status": "partial", "theorems": ["C42_speeds", "C42_flight_time", "C42_apogee_partial", "C42_apogee_refuted", "C42_landing_partial", "C42_line_partial", "C42_landing_refuted"], "note": "Speeds: full. Apogee: starts from -10000000, so a flight entirely below that Z is misreported (refuted). Landing: refuted - the code extrapolates when Z > 2 dz: a simulation stopped in the air gets an extrapolated point although the last position is documented, one stopped while climbing returns a point off the ground, a level last step above ground raises ZeroDivisionError. Proved for every flight whose last step crosses the ground in descent, and the exact result in all other cases."},
 {"property": "C43", "status": "partial", "theorems": ["C43_exact_partial", "C43_limits", "C43_defined", "C43_limits_refuted", "C43_curve_partial"], "note": "Exact for every geometric triple with order within the limits and values not yet equal; refuted outside (order 3 is reported as 2, and the extrapolated value is wrong; equal values raise ZeroDivisionError)."},
 {"property": "C44", "status": "proved", "theorems": ["C44_checksum", "C44_received", "C44_component", "C44_overflow", "C44_sent"], "note": "proved for every list of received bytes and every packet sent; C44_overflow states exactly when a value does not fit"},
 {"property": "C45", "status": "proved", "theorems": ["C45_sequence", "C45_order"], "note": "Full statement, with deployment times characterised by the specification of C23."},
 {"property": "C46", "status": "partial", "theorems": ["C46_inertia_partial", "C46_overrides", "C46_force", "C46_refuted"], "note": "Proved for every history of component changes ending in a recomputation, with and without overrides; force sums proved. Refuted behind the last-result cache: the same time and state after dropping a component returns the old inertia."},
 {"property": "C47", "status": "partial", "theorems": ["C47_order", "C47_order_unique", "C47_refuted"], "note": "Stable decreasing permutation proved for every list; refuted for the interfaces, which are never created (function returns None)."},
 {"property": "C48", "status": "partial", "theorems": ["C48_no_leak", "C48_mean", "C48_values_partial", "C48_crash_partial", "C48_success", "C48_history", "C48_crash_refuted", "C48_values_refuted"], "note": "crash cost is at least the worst cost after more than five evaluations or when some cost is not negative (C48_crash_partial), and better than the worst otherwise (C48_crash_refuted). Written values hold for variables with distinct paths; C48_values_refuted shows two variables with one path"},
 {"property": "C49", "status": "proved", "theorems": ["C49_distance", "C49_height", "C49_round_trip", "C49_rebuild", "C49_frame", "C49_vertical"], "note": ""},
 {"property": "C50", "status": "partial", "theorems": ["C50_limited", "C50_never", "C50_refuted"], "note": "Refuted: the stall angle is computed in degrees and compared with angles in radians, so fins never stall (C50_never, C50_refuted). C50_limited shows the limiting itself is right for a limit in the right unit."},
 {"property": "C51", "status": "partial", "theorems": ["C51_reports_partial", "C51_refuted"], "note": "Proved for histories without removals; refuted: removing a never-read key makes the unused-key report raise KeyError."},
 {"property": "C52", "status": "partial", "theorems": ["C52_all_texts_partial", "C52_refuted"], "note": "Code requires all texts, documentation says any: refuted; the partial theorem states exactly what is returned."},
 {"property": "C53", "status": "partial", "theorems": ["C53_increment_partial", "C53_refuted"], "note": "Refuted: slerp returns the increment, and with the wrong axis when the quaternions lie in opposite half spaces. Proved as an increment in the same half space."},
 {"property": "C54", "status": "proved", "theorems": ["C54_unit", "C54_step_splitting", "C54_negation"], "note": "Over the reals."},
 {"property": "C55", "status": "partial", "theorems": ["C55_axis_angle_partial", "C55_recovers_axis_angle", "C55_scaling_partial", "C55_rotation_vector_partial", "C55_refuted"], "note": "Refuted for the identity stored as (-1,0,0,0), where the axis raises ZeroDivisionError; proved for all other non-zero quaternions."},
 {"property": "C56", "status": "partial", "theorems": ["C56_euler_partial", "C56_refuted"], "note": "Refuted at gimbal lock; proved elsewhere for unit quaternions."},
 {"property": "C57", "status": "partial", "theorems": ["C57_angle_partial", "C57_refuted"], "note": "Refuted: directions with cosine within 1e-8 of 1 are reported as angle 0. Proved outside that band, with error bound inside."},
 {"property": "C58", "status": "partial", "theorems": ["C58_fixed_methods", "C58_adaptive_refuted", "C58_builtin_fixed", "C58_refuted"], "note": "Proved for the fixed-step methods and any number of variables. Refuted for the adaptive methods: StateList has no in-place addition of its own, '+=' appends, and the step taken is dt*b1*k1 only (theorem holds for every right-hand side and tableau)."},
 {"property": "C59", "status": "partial", "theorems": ["C59_relit", "C59_rocket", "C59_first_stage_partial", "C59_refuted"], "note": "Proved for motors lit by staging; refuted for the first stage unless the burn-time factor is one (shut-off time taken before scaling)."},
 {"property": "C60", "status": "proved", "theorems": ["C60_newton", "C60_euler", "C60_power", "C60_torque_free", "C60_force_free", "C60_dof_agree"], "note": ""},
 {"property": "C61", "status": "partial", "theorems": ["C61_altitude_ellipsoid", "C61_relative", "C61_altitude", "C61_position_refuted", "C61_back_partial", "C61_spin_refuted", "C61_rotation_refuted"], "note": "Velocity, orientation and spin relative to the moving ground and the altitude are proved for every state and site, on the ellipsoid the altitude to 20 cm; refuted: horizontal launch-frame position is ignored, the body-frame spin is turned by the local frame on the way back, and the local-frame velocity on the rotating earth contains the ground speed."},
 {"property": "C62", "status": "proved", "theorems": ["C62_calm", "C62_calm_ellipsoid", "C62_wind"], "note": ""},
 {"property": "C63", "status": "proved", "theorems": ["C63_ellipsoid", "C63_flat", "C63_sphere", "C63_ellipsoid_exact"], "note": "Flat and spherical earth exactly; WGS84 with the latitude at which the code's iteration stops, from 100 km below the ellipsoid upwards, to within 1.1e-10 of the speed."},
 {"property": "C64", "status": "proved", "theorems": ["C64_height", "C64_surface", "C64_converges", "C64_wgs84", "C64_centre"], "note": ""},
 {"property": "C65", "status": "partial", "theorems": ["C65_target_partial", "C65_vertical", "C65_down_refuted", "C65_zero", "C65_error_partial", "C65_short_way_refuted"], "note": "Proved except straight down (zero quaternion), within 1e-8 of vertical (exactly vertical instead), minus-identity error (ZeroDivisionError, C55); refuted: error may be the long way round."},
 {"property": "C66", "status": "partial", "theorems": ["C66_written_partial", "C66_empty", "C66_time_steps_partial", "C66_quaternion_refuted", "C66_fill_refuted", "C66_names_refuted"], "note": "Proved for columns that hold only vectors or only scalars and without name collisions; quaternions (fourth component lost), unlogged vector rows (TypeError) and name collisions are refuted."},
 {"property": "C67", "status": "partial", "theorems": ["C67_logged_partial", "C67_RK78_refuted"], "note": "Proved for all methods but RK78Adaptive, for which it is refuted for every step."},
 {"property": "C68", "status": "partial", "theorems": ["C68_base_drag_partial", "C68_logging_refuted"], "note": "Proved without derivative logging; with it, refuted for every rocket whose two lowest stages end without boat tail."},
 {"property": "C69", "status": "partial", "theorems": ["C69_flat_partial", "C69_altitude_refuted", "C69_apogee_refuted"], "note": "Proved for flat and absent earth models; refuted for the spherical earth."},
 {"property": "C70", "status": "proved", "theorems": ["C70_bands", "C70_default_band", "C70_default_misses"], "note": "Full statement; C70_default_misses shows that the default band can miss the limit."},
 {"property": "C71", "status": "partial", "theorems": ["C71_paced", "C71_own_rates", "C71_spacing", "C71_multiple", "C71_rate_refuted"], "note": "C71_rate_refuted: with a period that is a multiple of the step, packets come one step late (100 Hz with a 0.01 s step gives 50 Hz). C71_spacing and C71_multiple give the exact spacing"},
 {"property": "C72", "status": "partial", "theorems": ["C72_swarm", "C72_scipy", "C72_best_text", "C72_continue_partial", "C72_continue_refuted", "C72_nested_refuted"], "note": "swarm positions and scipy continuation proved; C72_continue_refuted: a swarm continuation with two or more variables raises; C72_nested_refuted: a nested optimization minimises the outer cost function"},
 {"property": "C73", "status": "proved", "theorems": ["C73_slices", "C73_mean_chord"], "note": "Real arithmetic in place of floats; trapezoidal fins with positive span and root chord and non-negative tip chord."},
 {"property": "C76", "status": "partial", "theorems": ["C76_number_refuted", "C76_number_partial", "C76_directions"], "note": "Refuted for five to eight fins: setting them up raises AttributeError (self.finNumber does not exist). Proved for the other numbers; directions proved for every number."},
 {"property": "C74", "status": "proved", "theorems": ["C74_weathervane", "C74_roll_damping", "C74_axial_flow", "C74_set_weathervane", "C74_set_roll_damping", "C74_set_axial_flow", "C74_three_fins"], "note": "Real arithmetic in place of floats. Forces by slices (Barrowman subsonic, Busemann supersonic with Mach cone correction, cubic interpolation between Mach 0.8 and 1.4)."},
 {"property": "C75", "status": "partial", "theorems": ["C75_smooth_partial", "C75_on_chord_partial", "C75_refuted", "C75_ahead_refuted", "C75_stubby_refuted"], "note": "Smoothness proved above the pole of the supersonic formula. Position on the chord proved from aspect ratio 0.473 upwards (C75_on_chord_partial) and refuted from the pole, about 0.29, up to 0.472 (C75_stubby_refuted, at Mach 1.2815), so the threshold is known to 0.001. Below the pole the centre of pressure passes through infinity above Mach 2 (C75_refuted)."},
 {"property": "C77", "status": "partial", "theorems": ["C77_dissipative_partial", "C77_axial", "C77_dissipative_refuted", "C77_tube", "C77_nose", "C77_stack", "C77_ogive_partial"], "note": "Proved for air meeting the rocket from the front half; refuted tail first: the axial factor is positive at every angle, so the axial force always points backwards along the rocket and pushes it along its motion."},
 {"property": "C78", "status": "partial", "theorems": ["C78_compressibility", "C78_positive", "C78_laminar", "C78_continuous_refuted"], "note": "Positive (for smooth surfaces up to Reynolds number 1e100) and corrected continuously; refuted: the coefficient drops by more than 1.2e-4 at Reynolds number 500000 for laminar-start boundary layers."},
 {"property": "C79", "status": "partial", "theorems": ["C79_reported", "C79_tube", "C79_formula", "C79_narrowing", "C79_widening_refuted", "C79_ogive", "C79_cone_refuted"], "note": "Reported point, tubes, narrowing transitions and tangent ogives of aspect ratio >= 1/2 proved; refuted: every cone has its centre of pressure a third of its length above its tip, every widening transition below its bottom. Positions of nose cones are ignored by the code."},
 {"property": "C80", "status": "proved", "theorems": ["C80_header", "C80_values", "C80_order"], "note": "Duplicated coefficient columns excluded for the value theorems (the last one would win)."},
 {"property": "C81", "status": "partial", "theorems": ["C81_tube_power", "C81_tube", "C81_roll", "C81_tube_total", "C81_symmetry_refuted", "C81_jet", "C81_constant"], "note": "Damping proved dissipative; refuted: transverse damping depends on the direction of the axis because components are squared separately."},
 {"property": "C82", "status": "partial", "theorems": ["C82_lift_partial", "C82_force_partial", "C82_still", "C82_lift_refuted"], "note": "Proved unless the air flows exactly across the rocket or within the snap-to-zero tolerance of it; refuted there: lift is then parallel to the air."},
 {"property": "C83", "status": "partial", "theorems": ["C83_base", "C83_cone_partial", "C83_cone_continuous", "C83_sonic_refuted", "C83_boat_tail", "C83_widening_refuted", "C83_transition_partial", "C83_transition_refuted"], "note": "Refuted at Mach exactly 1 (ZeroDivisionError), for equal diameters and widening boat tails (AttributeError); proved elsewhere."},
 {"property": "C84", "status": "partial", "theorems": ["C84_ogive_partial", "C84_cone_refuted", "C84_half_series_refuted", "C84_transition_partial", "C84_transition_refuted"], "note": "Tangent ogives (aspect ratio >= 1/2; > 1/2 for the planform area), planform area of cones and narrowing transitions proved with Riemann integrals. Refuted: volume of cones is four times too large, volume of widening transitions negative, half series noses cannot be built."},
 {"property": "C85", "status": "partial", "theorems": ["C85_radius", "C85_covered", "C85_length", "C85_max_diameter", "C85_joints_partial", "C85_step_refuted"], "note": "Refuted for steps in diameter (transition of zero length): ZeroDivisionError. Radius theorem assumes components covering the position have a getRadius."},
 {"property": "C86", "status": "partial", "theorems": ["C86_hellman", "C86_hellman_continuous", "C86_profile", "C86_heading", "C86_speeds_partial", "C86_speeds_refuted", "C86_locations"], "note": "Power law, tables and headings hold. Sampled speeds: probabilities sum to one, but the extreme bins are one too low (C86_speeds_refuted) and one is negative for calm locations."},
 {"property": "C87", "status": "proved", "theorems": ["C87_profiles", "C87_months", "C87_table"], "note": ""},
 {"property": "C88", "status": "partial", "theorems": ["C88_stance", "C88_rail", "C88_direction_partial", "C88_axis", "C88_first_step", "C88_refuted"], "note": "Position, axes, velocity and spin at launch and the rail proved for every earth model; directions within 1.4e-4 rad of vertical are made vertical, straight down is the zero quaternion (C65_down_refuted); the claim that the first step does not displace a rocket on a rail is refuted, its displacement proved in general."},
 {"property": "C89", "status": "partial", "theorems": ["C89_air", "C89_parachute", "C89_switch", "C89_acceleration", "C89_variables_lost", "C89_mass_lost", "C89_refuted"], "note": "Air, parachute and motion parts proved; the variables of components are lost at the switch (C89_variables_lost, C89_mass_lost, C89_refuted)."},
 {"property": "C90", "status": "partial", "theorems": ["C90_linear", "C90_jump", "C90_angular", "C90_refuted"], "note": "Mass, linear momentum and common centre of gravity proved; displacement of both bodies and loss of angular momentum proved exactly and refute the rest."},
 {"property": "C91", "status": "partial", "theorems": ["C91_aligned_partial", "C91_mismatch", "C91_refuted"], "note": "Proved for components whose own requests match and for totals that do not; cancelling mistakes refute the rest."},
 {"property": "C92", "status": "partial", "theorems": ["C92_names_partial", "C92_drop_partial", "C92_refuted", "C92_logs"], "note": "Log files and, for stages not named like an attribute, attributes proved; a clash refutes the rest."},
 {"property": "C93", "status": "partial", "theorems": ["C93_include_exact_partial", "C93_include_wins", "C93_include_error", "C93_refuted"], "note": "Exact when no included key exists already; in general included values win. Refuted: included entries overwrite silently."},
 {"property": "C94", "status": "partial", "theorems": ["C94_create_partial", "C94_modifier_defined", "C94_refuted", "C94_unknown_refuted"], "note": "For commands that leave the derived keys distinct. Refuted: merging keys lose values; indented unknown commands become entries."},
 {"property": "C95", "status": "partial", "theorems": ["C95_study", "C95_needs_change", "C95_refuted"], "note": "Proved for all studies that end; refuted for flights with a constant coordinate (ZeroDivisionError)."},
 {"property": "C96", "status": "partial", "theorems": ["C96_table_partial", "C96_mixed_refuted", "C96_control_refuted"], "note": "Without control systems that adjust the step and without mixing kinds of schemes; refuted otherwise."},
 {"property": "C97", "status": "partial", "theorems": ["C97_choice", "C97_file", "C97_refuted"], "note": "Choice and file search exact; refuted: ignored options, empty definitions run as batch."},
 {"property": "C98", "status": "partial", "theorems": ["C98_one_row_per_point_partial", "C98_components_refuted", "C98_reference_refuted", "C98_level_refuted", "C98_no_points"], "note": "One row per condition and the values of the rocket hold; the columns of components (zero after the first condition), the reference quantities (those of the last rocket) and logging level 0 are refuted."},
 {"property": "C99", "status": "partial", "theorems": ["C99_coefficients", "C99_still_air", "C99_drag_partial", "C99_drag_refuted", "C99_repeated_refuted", "C99_intermediate_refuted"], "note": "Coefficients, drag, lift and normal force as the formula says; refuted: drag for rockets that are not upright, repeated expansion, intermediate columns; no finite coefficients in still air."},
 {"property": "C100", "status": "partial", "theorems": ["C100_loop", "C100_zero_rate_refuted", "C100_logged_target_refuted", "C100_ideal", "C100_controlled_partial", "C100_upper_stage_refuted", "C100_columns", "C100_order_refuted", "C100_drop_partial", "C100_drop_refuted"], "note": "Loop, gains, moments, targets, log and column handling proved for every sequence of calls. Refuted: default rate with a PID controller, controlled fins on an upper stage when a boat tail was added, order of the Desired columns, logged targets, dropping the controlled stage after the stepping was modified."},
 {"property": "C101", "status": "partial", "theorems": ["C101_recorded", "C101_frames_partial", "C101_range", "C101_orientation_refuted", "C101_given_up_refuted"], "note": "Times, positions, velocities, angular velocities and deflections proved for every list of flights; refuted: orientation (last frame shows the launch orientation) and flights whose control system is given up (IndexError)."},
 {"property": "C102", "status": "partial", "theorems": ["C102_columns", "C102_cache", "C102_stale_refuted", "C102_plot_partial", "C102_twice_refuted", "C102_time_refuted"], "note": "Proved for definitions that do not select Time(s) nor a column twice; both cases refuted, as is the cache for files changed after reading."},
 {"property": "C103", "status": "partial", "theorems": ["C103_cases", "C103_overrides", "C103_level", "C103_isolated", "C103_stops_refuted", "C103_default_refuted"], "note": "Selection, overrides, logging level and independence of the cases are proved for all definitions; refuted: a case whose definition can not be loaded ends the batch, and default recording records nothing in the run that announces it."},
 {"property": "C104", "status": "partial", "theorems": ["C104_range", "C104_vectors", "C104_list", "C104_commas_refuted"], "note": "Ranges of numbers and vectors and lists of texts without commas are proved; refuted: lists of vectors written with commas are taken apart."},
 {"property": "C105", "status": "partial", "theorems": ["C105_one", "C105_agreement", "C105_sets", "C105_closest_refuted"], "note": "Single curve (one or more comparison sets) proved; refuted: with several curves the smallest signed error is taken, not the closest curve."},
 {"property": "C106", "status": "partial", "theorems": ["C106_formats", "C106_roundtrip", "C106_count", "C106_unclosed_refuted"], "note": "Accepted formats, round trip and refusal of other numbers of components are proved; refuted: a missing closing bracket is not refused, it drops a character."},
 {"property": "C107", "status": "partial", "theorems": ["C107_inverse", "C107_sample_partial", "C107_speeds_refuted", "C107_average", "C107_weights_refuted", "C107_read"], "note": "Histogram drawing, headings, averaging and reading are proved for all tables with weights adding up to one and at least 1.4 % in the last column; refuted: speeds do not follow the recorded frequencies (densities), weights not adding up to one scale the headings. scipy and numpy functions are modelled from their documentation."},
 {"property": "C108", "status": "proved", "theorems": ["C108_parabola", "C108_exact", "C108_euler", "C108_completes", "C108_names", "C108_error"], "note": "All selectable methods. The 1e-15 comes from the entries 2e-16 the code puts for zeros of the tableaus; C108_euler gives the exact lag of Euler's method; C108_completes and C108_names say when the flight goes through."},
 {"property": "C109", "status": "partial", "theorems": ["C109_environment", "C109_refused", "C109_unchosen", "C109_default", "C109_gust_direction_refuted", "C109_fraction_refuted", "C109_controller_refuted"], "note": "Proved: exact characterisation of the environments made (C109_environment), refusal, independence, defaults. Refuted: that every documented choice works (controller constant, gust without direction, fractional turbulence)."},
 {"property": "C110", "status": "proved", "theorems": ["C110_components", "C110_total", "C110_refused", "C110_stages", "C110_reference"], "note": "The order of stages is that of a set and fixed later by sorting (C47); look-ups of class and diameter assume that nothing is stored under the path written twice, where readers look first."},
 {"property": "C111", "status": "partial", "theorems": ["C111_prepared_partial", "C111_errors", "C111_refuted"], "note": "Refuted: a missing attribute in the preparation of a component is taken for 'nothing to prepare', so five to eight fins fail only in flight. Proved: everything else that was prepared is there, other errors stop the construction."},
 {"property": "C112", "status": "partial", "theorems": ["C112_fixed_mass", "C112_stage_cg", "C112_force_refuted", "C112_moi_refuted", "C112_table", "C112_columns"], "note": "Refuted for forces, which are not placed relative to their stage, and for moments of inertia that can not be read, which are replaced. Fixed masses, stage overrides and tabulated inertias are proved."},
 {"property": "C113", "status": "proved", "theorems": ["C113_length", "C113_fineness"], "note": "Stated for bodies stacked without gaps, in the order of the lists (sorted top to bottom, C47)."},
 {"property": "C114", "status": "partial", "theorems": ["C114_positive", "C114_sonic", "C114_exists_refuted", "C114_reference_area", "C114_edges", "C114_round_trailing", "C114_round_leading", "C114_edges_read", "C114_continuous_partial", "C114_continuous_refuted"], "note": "The full claim is false at Mach 1: C114_exists_refuted (division by zero) and C114_continuous_refuted (jump). Positivity holds at all other Mach numbers; continuity is proved off Mach 1 (and off 0.9 for round leading edges). C114_sonic says when the value at Mach 1 exists."},
 {"property": "C115", "status": "partial", "theorems": ["C115_record_partial", "C115_record_refuted", "C115_trace_refuted", "C115_terminal", "C115_silent", "C115_released_refuted", "C115_released_partial", "C115_study", "C115_sweep_refuted"], "note": "C115_record_partial and C115_terminal give the exact record and screen of any simulation from any console state; C115_study covers studies of any size. False in full: system information missing from the second simulation on (C115_record_refuted), trace of a crash not recorded (C115_trace_refuted), console not given back after a silent simulation (C115_released_refuted), record of a sweep has only its last condition (C115_sweep_refuted)."},
 {"property": "C116", "status": "partial", "theorems": ["C116_parts", "C116_single_refuted", "C116_file", "C116_log", "C116_mean", "C116_deviation", "C116_plot_partial", "C116_plot_refuted"], "note": "Two runs or more: C116_parts, C116_file, C116_log, C116_mean, C116_deviation. A single run fails (C116_single_refuted). The landing plot leaves out points (C116_plot_refuted); C116_plot_partial: heights are always in range, and for two runs everything."},
 {"property": "C117", "status": "proved", "theorems": ["C117_row", "C117_file", "C117_any_text", "C117_written"], "note": "C117_file is an equivalence for every layout and C117_any_text shows every text to be one; C117_row characterises rows; C117_written shows what rows written with any white space mean. float() and the reading of a vector are those of C106."},
 {"property": "C118", "status": "partial", "theorems": ["C118_rest", "C118_positions", "C118_restart", "C118_file_partial", "C118_overwritten_refuted", "C118_lost_refuted", "C118_plots_refuted"], "note": "C118_rest, C118_positions, C118_restart: what is written and how a swarm starts from it. C118_file_partial: for names with .mapleaf at the end only. C118_overwritten_refuted: a definition with another ending is overwritten. C118_lost_refuted: the result is lost for definitions without a file. C118_plots_refuted: plots asked for are not in the continued definition."},
 {"property": "C119", "status": "partial", "theorems": ["C119_expression", "C119_function", "C119_crash", "C119_colon_refuted", "C119_dependent_partial", "C119_repeated_refuted", "C119_cases", "C119_parallel_partial", "C119_nested_refuted", "C119_method", "C119_bare_refuted", "C119_particles_refuted", "C119_particles", "C119_particles_mixed_refuted"], "note": "C119_expression, C119_function, C119_crash, C119_cases, C119_method, C119_particles: as stated. C119_dependent_partial: keys that do not contain DependentVariables (C119_repeated_refuted). C119_parallel_partial: without nested optimization (C119_nested_refuted). C119_colon_refuted: expressions with a colon are not evaluated. C119_bare_refuted: IndexError for a method without name. C119_particles_refuted: the default number of particles cannot be reached."},
 {"property": "C120", "status": "partial", "theorems": ["C120_study_partial", "C120_study_sampled", "C120_trials", "C120_study_refuted", "C120_trials_refuted"], "note": "Both clauses are refuted (C120_study_refuted, C120_trials_refuted). C120_study_partial: without uncertain parameters the study is of the definition given. C120_study_sampled, C120_trials: what is used instead, the values drawn when the definition is loaded."},
 {"property": "C121", "status": "partial", "theorems": ["C121_fins", "C121_drawn", "C121_canards", "C121_colour_partial", "C121_unpowered_refuted", "C121_parachute", "C121_frames", "C121_last_refuted", "C121_file_refuted", "C121_actuators_refuted", "C121_limits_partial", "C121_limits_refuted", "C121_works_partial"], "note": "Drawing, canards, parachutes, colours, frames and the fins hold. False: the last frame is missing, axes leave out points, unpowered dropped stages and unequal numbers of actuators fail, the file name is fixed."},
 {"property": "C122", "status": "partial", "theorems": ["C122_paths", "C122_paths_refuted", "C122_returned_partial", "C122_returned_refuted"], "note": "All positions are drawn and the axis of height contains them; other plots leave the flights alone. False: horizontal axes leave out points; the animation replaces the flights."},
 {"property": "C123", "status": "partial", "theorems": ["C123_flight", "C123_flight_again_partial", "C123_nan_refuted", "C123_missing_refuted", "C123_default_refuted", "C123_sweep", "C123_sweep_again_partial", "C123_smooth_refuted", "C123_file_partial", "C123_overwritten_refuted"], "note": "Recording and a second run hold for numbers, and for sweeps without refinement (\u2026_partial). False: with refinement the second run is an IndexError; a missing column ends the batch; NaN fails; no default values are recorded; definitions with other endings are overwritten."},
 {"property": "C124", "status": "partial", "theorems": ["C124_curves", "C124_drawn_partial", "C124_no_columns_refuted", "C124_scale_refuted", "C124_works_refuted", "C124_label_refuted", "C124_x_drawn_refuted", "C124_comparison_partial", "C124_comparison_refuted", "C124_validated"], "note": "With tidy logs exactly the curves asked for are drawn, and the data kept for the validation are theirs; labels, axis scale, missing columns and over-general specifications are refuted."},
 {"property": "C125", "status": "partial", "theorems": ["C125_saved_partial", "C125_saved_refuted", "C125_distinct_refuted", "C125_location_partial", "C125_location_refuted"], "note": "Holds for names with an extension in a directory that exists; refuted for names without extension or with dots, and for locations without directory."},
 {"property": "C126", "status": "partial", "theorems": ["C126_rows", "C126_off", "C126_order", "C126_euler_flat_partial", "C126_euler_round_partial", "C126_euler_refuted"], "note": "Rows, columns and order proved for every flight. The Euler angles give the axes of the rocket except with its x axis vertical (C126_euler_refuted, from C56)."},
 {"property": "C127", "status": "partial", "theorems": ["C127_tube", "C127_transition", "C127_nose", "C127_point_refuted", "C127_fin", "C127_fins_partial", "C127_fins_refuted", "C127_contents_partial", "C127_masses_refuted"], "note": "Body components and one fin are drawn right, sets of three and four fins completely (C127_fins_partial), other numbers not (C127_fins_refuted); centres of gravity of components without outline are missing (C127_masses_refuted); a nose of diameter 0 raises (C127_point_refuted)."},
 {"property": "C128", "status": "partial", "theorems": ["C128_descent", "C128_whole", "C128_fins", "C128_nose", "C128_transition", "C128_tube_partial", "C128_tube_refuted", "C128_moved", "C128_turned", "C128_seen", "C128_setup_partial", "C128_setup_refuted"], "note": "Proved for whole flights of the model, ascent and descent; the part about the launch direction of the definition holds for rockets that are rotationally symmetric and is refuted in general (C128_setup_refuted: a turned launch direction also rolls the rocket). Nose cones and transitions have the symmetry; sets of n fins for every n-th part of a turn; body tubes only for quarter turns (C128_tube_refuted)."},
 {"property": "C129", "status": "partial", "theorems": ["C129_descent_partial", "C129_whole", "C129_drift_partial", "C129_exact", "C129_weights"], "note": "Exact for Euler's, Heun's and the two classical fourth-order methods with fixed steps (C129_exact, C129_whole); for the other fixed-step methods the drift is the wind times the sum of the weights, which differs from 1 by at most 1e-15 (C129_drift_partial, C129_weights). For adaptive methods the theorem needs equal sums of the two weight sets; the built-in pairs differ by about 1e-16 because zeros of the tableaux are replaced, so their error estimates, and with them the steps, are not exactly the same: this part is missing."},
 {"property": "C130", "status": "proved", "theorems": ["C130_nose", "C130_transition", "C130_tube", "C130_fins", "C130_sum", "C130_point", "C130_straight", "C130_launch", "C130_time"], "note": "For flights over the flat earth; control systems and events are not part of the flight model. The forces of nose cones, transitions, body tubes and fin sets in axial flow are axial (C130_nose, C130_transition, C130_tube, C130_fins, C130_sum); that of a canted set includes a rolling moment."},
 {"property": "C131", "status": "partial", "theorems": ["C131_realtime", "C131_packets", "C131_goes_on", "C131_prompt", "C131_timeout", "C131_late_refuted", "C131_cut_refuted", "C131_setup"], "note": "Replies in time, missing lines, real time and set-up are proved; that a late or cut reply does no lasting harm is refuted (stale lines shift all later angles)."},
 {"property": "C132", "status": "partial", "theorems": ["C132_steering_refuted", "C132_realtime_flight"], "note": "Refuted: the flight does not depend on the replies (they are stored and never read). Real time is proved."},
 {"property": "C133", "status": "partial", "theorems": ["C133_file", "C133_cost_partial", "C133_weights_refuted", "C133_zero", "C133_integral", "C133_missing"], "note": "Proved with the weights of yaw and roll exchanged, which is what the code computes; the stated weights are refuted (equal only if the yaw and roll sums are)."},
 {"property": "C134", "status": "partial", "theorems": ["C134_shows_partial", "C134_single_refuted", "C134_given", "C134_axes_refuted", "C134_unsaved", "C134_saved_partial", "C134_saved_refuted"], "note": "Holds for two or more locations (one raises: C134_single_refuted), axes given with their figures (C134_axes_refuted) and directories whose path has no dot (C134_saved_refuted)."},
 {"property": "C135", "status": "partial", "theorems": ["C135_same_partial", "C135_equivalence_partial", "C135_kinds_refuted", "C135_symmetric_refuted", "C135_length_refuted", "C135_transitive_refuted", "C135_three_dof_refuted", "C135_definitions"], "note": "Proved for values of the same kind (C135_same_partial, C135_equivalence_partial) and for definitions (C135_definitions). Refuted between kinds: exceptions (C135_kinds_refuted), asymmetry (C135_symmetric_refuted), composite states with additional variables (C135_length_refuted, C135_transitive_refuted), three degree of freedom states (C135_three_dof_refuted)."}
]}
