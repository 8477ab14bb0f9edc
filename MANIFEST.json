{
 "claims": [
  {
   "property": "C01",
   "status": "proved",
   "theorems": [
    "C01_trichotomy",
    "C01_transitive",
    "C01_derived_comparisons",
    "C01_chronological",
    "C01_mismatch_throws"
   ],
   "note": "all five comparison operators; chronological order of valid dates on both calendars"
  },
  {
   "property": "C02",
   "status": "partial",
   "theorems": [
    "C02_noleap",
    "C02_noleap_constructor",
    "C02_total",
    "C02_standard_partial",
    "C02_standard_refuted",
    "C02_throw_corrupts_object"
   ],
   "note": "proved for every operation sequence on the no-leap calendar; on the standard calendar false as stated (stale month table after a month carry), proved when no month carry occurs"
  },
  {
   "property": "C03",
   "status": "partial",
   "theorems": [
    "C03_noleap_instant",
    "C03_standard_instant",
    "C03_success_condition",
    "C03_add_seconds",
    "C03_add_days",
    "C03_add_delta",
    "C03_no_throw_refuted",
    "C03_standard_refuted"
   ],
   "note": "instant preserved whenever the call returns; exact success condition; the never-throws half is false (negative exact multiples, negative microseconds)"
  },
  {
   "property": "C04",
   "status": "proved",
   "theorems": [
    "C04_difference",
    "C04_antisymmetric_additive",
    "C04_get_seconds",
    "C04_sub_add",
    "C04_month_delta_refuted",
    "C04_standard_throws"
   ],
   "note": "deltas with a month field are the exception, shown by C04_month_delta_refuted"
  },
  {
   "property": "C05",
   "status": "partial",
   "theorems": [
    "C05_agreement",
    "C05_verify_exact",
    "C05_gregorian_refuted"
   ],
   "note": "false of the code: year%1000 used instead of the century rule; exact set of agreeing years proved"
  },
  {
   "property": "C06",
   "status": "proved",
   "theorems": [
    "C06_long_round_trip",
    "C06_string_round_trip",
    "C06_short_round_trip",
    "C06_free_round_trip",
    "C06_long_injective",
    "C06_string_injective",
    "C06_year_only_refuted"
   ],
   "note": "round trips through FromLongString and FromFormattedString; documented format yyyy is always rejected"
  },
  {
   "property": "C07",
   "status": "proved",
   "theorems": [
    "C07_partition",
    "C07_step_not_longer",
    "C07_step_length",
    "C07_no_step",
    "C07_terminates",
    "C07_succeeds",
    "C07_negative_step_never_ends",
    "C07_standard_calendar_throws"
   ],
   "note": "no-leap calendar as in the statement; a negative step is accepted and never ends, the standard calendar always throws"
  },
  {
   "property": "C08",
   "status": "proved",
   "theorems": [
    "C08_schedule",
    "C08_periodic",
    "C08_final_output_refuted"
   ],
   "note": "proved for every end time except 0000-01-01, where the final output is skipped (C08_final_output_refuted)"
  },
  {
   "property": "C09",
   "status": "proved",
   "theorems": [
    "C09_file_layout"
   ],
   "note": "every PerformOutput sequence; complete files hold exactly n records"
  },
  {
   "property": "C10",
   "status": "proved",
   "theorems": [
    "C10_workflow"
   ],
   "note": "month-free positive periods"
  },
  {
   "property": "C11",
   "status": "proved",
   "theorems": [
    "C11_total_bytes",
    "C11_array_sizes_aligned",
    "C11_allocate_layout",
    "C11_attach_layout",
    "C11_allocate_succeeds",
    "C11_reallocate",
    "C11_container_memory",
    "C11_attach_null_refuted"
   ],
   "note": "chunk layout, alignment, and ownership of the container block; AttachTo(NULL) followed by Allocate leaks"
  },
  {
   "property": "C12",
   "status": "proved",
   "theorems": [
    "C12_byte_size",
    "C12_range",
    "C12_injective",
    "C12_surjective",
    "C12_debug_check_complete",
    "C12_debug_check_refuted"
   ],
   "note": "size_t without wrap-around; the debug bounds test accepts one index past the end"
  },
  {
   "property": "C13",
   "status": "proved",
   "theorems": [
    "C13_no_bad_free",
    "C13_freed_once",
    "C13_one_owner",
    "C13_no_leak",
    "C13_external_memory_kept"
   ],
   "note": "all operation sequences on any number of arrays; delete[] of malloc'ed memory is modelled as free"
  },
  {
   "property": "C14",
   "status": "partial",
   "theorems": [
    "C14_allocate",
    "C14_assign",
    "C14_self",
    "C14_self_2d_zeroes",
    "C14_self_refuted"
   ],
   "note": "holds for distinct objects and for self-assignment except owning two-dimensional arrays, where self-assignment erases the contents (C14_self_refuted); DataStruct as destination not covered by C14_assign"
  },
  {
   "property": "C15",
   "status": "proved",
   "theorems": [
    "C15_isqrt",
    "C15_intpow",
    "C15_ipow",
    "C15_ifact",
    "C15_ifact_refuted",
    "C15_max_min_sign_clamp"
   ],
   "note": "IntPow is exact whenever the result fits an int; IFact(2^32-1) does not return"
  },
  {
   "property": "C16",
   "status": "proved",
   "theorems": [
    "C16_accepted",
    "C16_tiles",
    "C16_equal_aligned",
    "C16_overrun_refuted"
   ],
   "note": "every accepted processor count; the layout also needs at least max(6, ...) rows in m_aPatchBoxes, which the code does not check (C16_overrun_refuted)"
  },
  {
   "property": "C17",
   "status": "partial",
   "theorems": [
    "C17_accepted",
    "C17_tiles",
    "C17_nonempty",
    "C17_nonempty_refuted"
   ],
   "note": "exact tiling proved; non-emptiness holds iff the patch count does not exceed the number of elements along alpha, and is refuted otherwise"
  },
  {
   "property": "C18",
   "status": "proved",
   "theorems": [
    "C18_one_rank",
    "C18_active_distinct",
    "C18_balanced",
    "C18_uninitialised_refuted"
   ],
   "note": "over the rows of m_aPatchBoxes, which is what the code loops over; rows beyond the initialised boxes are activated too (C18_uninitialised_refuted)"
  },
  {
   "property": "C19",
   "status": "proved",
   "theorems": [
    "C19_cubed_sphere",
    "C19_cartesian",
    "C19_cartesian_far_refuted"
   ],
   "note": "level-0 layouts, nodes up to one panel width (one period) outside; further away the Cartesian lookup throws"
  },
  {
   "property": "C20",
   "status": "proved",
   "theorems": [
    "C20_crossing",
    "C20_round_trip",
    "C20_injective",
    "C20_interior_and_corner"
   ],
   "note": "every panel, edge and resolution; RelativeCoord lands on the node that the cube geometry prescribes and crossing back returns"
  },
  {
   "property": "C21",
   "status": "proved",
   "theorems": [
    "C21_tables_agree",
    "C21_direction_from_panel",
    "C21_flags_agree",
    "C21_opposing_round_trip",
    "C21_direction_opposite"
   ],
   "note": "every panel and direction: the four adjacency tables agree with each other and with the cube geometry"
  },
  {
   "property": "C22",
   "status": "partial",
   "theorems": [
    "C22_exchange",
    "C22_halo_only",
    "C22_across_panels",
    "C22_within_panel",
    "C22_corner_transposed_refuted"
   ],
   "note": "Proved for edges, and for corners inside a panel or across a periodic boundary, any sizes and numbers of arrays. At corners that cross a cubed-sphere panel edge with exchanged coordinates the code puts values in transposed halo cells when the halo is wider than one node (C22_corner_transposed_refuted), so the claim does not hold in full there. That the default layout registers buffers whose lead nodes meet is a hypothesis."
  },
  {
   "property": "C23",
   "status": "proved",
   "theorems": [
    "C23_attach",
    "C23_headers_match",
    "C23_duplicate_header_refuted",
    "C23_unpack_any_order",
    "C23_wait_receive",
    "C23_lockstep",
    "C23_completes"
   ],
   "note": "All ranks, any number of exchanges, any schedule of ranks and messages; MPI semantics are assumed as described at the head of ProtoModel.v; two buffers with equal headers on one processor pair are shown to be mishandled."
  },
  {
   "property": "C24",
   "status": "proved",
   "theorems": [
    "C24_capacity",
    "C24_send_areas",
    "C24_recv_check_refuted"
   ],
   "note": "Send areas and capacity for every registration; the receive-side bound check counts bytes as doubles and does not stop an overread (refuted)."
  },
  {
   "property": "C25",
   "status": "partial",
   "theorems": [
    "C25_cartesian_mean",
    "C25_cartesian_continuous",
    "C25_cartesian_interior",
    "C25_cartesian_unchanged",
    "C25_cartesian_sum",
    "C25_cartesian_twice",
    "C25_sphere_mean",
    "C25_sphere_continuous",
    "C25_sphere_interior",
    "C25_sphere_unchanged",
    "C25_sphere_sum",
    "C25_sphere_rounding_refuted",
    "C25_sphere_vectors",
    "C25_sphere_velocity",
    "C25_sphere_velocity_continuous",
    "C25_sphere_velocity_unchanged"
   ],
   "note": "Cartesian: all components, any arithmetic for continuity. Sphere: scalar components in exact arithmetic (in double arithmetic coincident nodes on panels with exchanged coordinates can differ in the last bit, C25_sphere_rounding_refuted). Velocities on the sphere: after TransformHaloVelocities the summed components are those of the mean of the tangent vectors at the point, so coincident nodes carry the same vector (exact arithmetic, the tabulated 2 to 10 Lobatto points per element; covariant components as compiled). The contents of the first halo ring are a hypothesis (what C22 delivers)."
  },
  {
   "property": "C26",
   "status": "proved",
   "theorems": [
    "C26_cartesian",
    "C26_sphere",
    "C26_cartesian_layouts",
    "C26_sphere_layouts",
    "C26_order_one_refuted"
   ],
   "note": "Bit for bit, for any averaging operation; any two element-aligned decompositions (order >= 2), in particular the default layouts for any two patch counts. The contents of the first halo ring are a hypothesis (what C22 delivers)."
  },
  {
   "property": "C27",
   "status": "proved",
   "theorems": [
    "C27_combine",
    "C27_combine_throws",
    "C27_zero_coefficients_unread",
    "C27_copy",
    "C27_zero",
    "C27_patch"
   ],
   "note": "All coefficient vectors, instances and destinations, in exact arithmetic; CopyData and ZeroData touch only the selected data type."
  },
  {
   "property": "C28",
   "status": "partial",
   "theorems": [
    "C28_erk",
    "C28_strang",
    "C28_splitexp",
    "C28_constant",
    "C28_linear",
    "C28_linear_ssprk53",
    "C28_order",
    "C28_ssprk53_refuted"
   ],
   "note": "Every option realises its Butcher tableau for every tendency (exact arithmetic; DSS abstracted as a linear projection, implicit solve by its equation). The constant-tendency and linear claims hold for Forward Euler, RK4, SSP-RK3 and KGU(3,5); the 15-digit constants of SSP-RK(5,3) satisfy them only to 1e-14 (a zero tendency changes the state, C28_ssprk53_refuted), so the property as stated is false for that option."
  },
  {
   "property": "C29",
   "status": "partial",
   "theorems": [
    "C29_ars232",
    "C29_ars343",
    "C29_ars343b",
    "C29_ars343b_base_refuted",
    "C29_ars222",
    "C29_ars443",
    "C29_ssp3332",
    "C29_gark2",
    "C29_state_with_tracers",
    "C29_order2",
    "C29_order3",
    "C29_ars343_order3_decimal",
    "C29_ark232_refuted",
    "C29_ark4_refuted"
   ],
   "note": "Six of the seven schemes follow their published pair for all tendencies (ARS222, ARS443, SSP3332 and GARK2 for state variables only; their tracers are the subject of C30). ARK232 and ARK4 do not (refuted with witnesses)."
  },
  {
   "property": "C30",
   "status": "partial",
   "theorems": [
    "C30_erk",
    "C30_ars232",
    "C30_ars343",
    "C30_strang_single",
    "C30_strang",
    "C30_splitexp",
    "C30_state",
    "C30_ark4_tracers_never_advanced",
    "C30_stale_tracers_refuted",
    "C30_strang_restart_refuted"
   ],
   "note": "Holds for the explicit schemes, ARS232, ARS343, split-explicit, and for state variables in every scheme; five IMEX schemes let tracers depend on scratch contents, ARK4 never advances them and Strang splitting carries an increment between steps (refuted with witnesses)."
  },
  {
   "property": "C31",
   "status": "partial",
   "theorems": [
    "C31_output",
    "C31_input",
    "C31_round_trip",
    "C31_idle_rank",
    "C31_uninitialised_refuted"
   ],
   "note": "Proved for every number of ranks up to the number of patches, every arrival order and every reading rank count. The property as stated is false for more writing ranks than patches (an idle rank throws, C31_idle_rank) and when fewer boxes are initialised than allotted. The sizes of the containers are functions of the parameters and patch data; opening and writing the file succeed."
  },
  {
   "property": "C32",
   "status": "partial",
   "theorems": [
    "C32_accepted",
    "C32_done",
    "C32_count",
    "C32_requests",
    "C32_tag",
    "C32_tag_refuted",
    "C32_location_refuted",
    "C32_duplicate_refuted",
    "C32_other_rank"
   ],
   "note": "Done is exact for distinct pairs with locations 0 to 3. Refuted: tags of types from Divergence on, DataLocation_None, repeated pairs, ranks other than the root. The receive loop named in the statement no longer exists in the code, so that part has nothing to be proved about; C32_accepted and C32_count state it for any sequence of messages."
  },
  {
   "property": "C33",
   "status": "proved",
   "theorems": [
    "C33_lagrange",
    "C33_delta",
    "C33_sum",
    "C33_diff",
    "C33_diffdiff",
    "C33_diffdiffdiff",
    "C33_diff_sum",
    "C33_close_nodes_refuted",
    "C33_interpolate",
    "C33_vandermonde"
   ],
   "note": "Exact arithmetic. The derivative weights need nodes at least 1e-14 apart, the tolerance with which the code recognises a node; closer distinct nodes make it divide by zero (C33_close_nodes_refuted)."
  },
  {
   "property": "C34",
   "status": "proved",
   "theorems": [
    "C34_apply",
    "C34_compose",
    "C34_range_refuted",
    "C34_identity",
    "C34_neutral",
    "C34_variants",
    "C34_columns"
   ],
   "note": "Exact arithmetic, input and output columns not overlapping. C34_range_refuted shows that the covering ranges are needed."
  },
  {
   "property": "C35",
   "status": "partial",
   "theorems": [
    "C35_sphere",
    "C35_panels",
    "C35_lonlat",
    "C35_band_refuted",
    "C35_from_lonlat",
    "C35_round_trip",
    "C35_round_trip_angles",
    "C35_round_trip_lonlat"
   ],
   "note": "Real arithmetic. Everything is proved except that on the two polar panels RLLFromXYP takes the longitude of x = 0 when 0 < |x| <= DBL_EPSILON, so the round trip fails there (C35_band_refuted); the point is then off by at most DBL_EPSILON in each horizontal component (C35_lonlat)."
  },
  {
   "property": "C36",
   "status": "partial",
   "theorems": [
    "C36_tangent",
    "C36_to_panel",
    "C36_to_lonlat",
    "C36_inverse",
    "C36_panels",
    "C36_copanels",
    "C36_not_adjacent",
    "C36_north_pole",
    "C36_south_pole_refuted",
    "C36_pole_division_refuted",
    "C36_guard_refuted"
   ],
   "note": "Real arithmetic; the coordinate vectors are derivatives of the embedding. Proved off the poles for all panels and all 18 vector and 18 covector formulae between panels. The claim about the poles holds at the north pole and fails at the south pole (no meridian fits); VecTransRLLFromABP divides by zero at both; inside the 1e-13 guard but off the pole the vector is turned."
  },
  {
   "property": "C37",
   "status": "partial",
   "theorems": [
    "C37_uniform",
    "C37_repeated",
    "C37_repeated_area",
    "C37_repeated_tabulated",
    "C37_mixed",
    "C37_mixed_area",
    "C37_lobatto",
    "C37_lobatto_area",
    "C37_lobatto_tabulated",
    "C37_areas",
    "C37_lobatto_areas",
    "C37_negative_refuted"
   ],
   "note": "Exact value for every index, negative ones included; monotonicity, periodicity and areas for the tabulated orders 2 to 10. False below zero: the shared-node spacing is shifted by one node or throws, the repeated and mixed ones throw on negative multiples of the order, areas read outside their array (C37_negative_refuted). The grids use the repeated spacing with a halo of one node, where it is correct."
  },
  {
   "property": "C38",
   "status": "proved",
   "theorems": [
    "C38_cached",
    "C38_setters",
    "C38_values",
    "C38_inverse",
    "C38_routes",
    "C38_gamma"
   ],
   "note": "Exact arithmetic, positive arguments."
  },
  {
   "property": "C39",
   "status": "proved",
   "theorems": [
    "C39_column",
    "C39_derivative",
    "C39_kink_refuted"
   ],
   "note": "Exact arithmetic; at the kink of the piecewise linear map the value from above is returned and no derivative exists."
  },
  {
   "property": "C40",
   "status": "proved",
   "theorems": [
    "C40_givens",
    "C40_rotate",
    "C40_annihilate"
   ],
   "note": "Exact arithmetic."
  },
  {
   "property": "C41",
   "status": "partial",
   "theorems": [
    "C41_widened",
    "C41_one_equation_refuted",
    "C41_every_size_refuted",
    "C41_constructor_refuted",
    "C41_no_iterations_refuted"
   ],
   "note": "The property is false of the code: the last inner iteration writes one entry past m_dS, for every number of equations; the constructor and a zero iteration limit read unassigned variables. With one entry more in m_dS every access is in bounds, for every function."
  },
  {
   "property": "C42",
   "status": "proved",
   "theorems": [
    "C42_accepts",
    "C42_rejects",
    "C42_defaults",
    "C42_strict_lenient",
    "C42_empty_name_refuted",
    "C42_duplicate_name_refuted"
   ],
   "note": "Both copies of the parser (src/base throws where src/atm reports). Tables with an empty or repeated option name are outside the property; witnesses show what happens there."
  },
  {
   "property": "C43",
   "status": "proved",
   "theorems": [
    "C43_parse",
    "C43_meaning",
    "C43_meaning_unique",
    "C43_refused",
    "C43_inside",
    "C43_last_line_refuted",
    "C43_empty_refuted",
    "C43_long_line_refuted"
   ],
   "note": "Files of newline-terminated lines shorter than the 256 byte buffer; a last line without newline is ignored, and a longer line keeps the loop from ending (refuted with witnesses)."
  },
  {
   "property": "C44",
   "status": "proved",
   "theorems": [
    "C44_range",
    "C44_balanced",
    "C44_text",
    "C44_silent",
    "C44_deep_refuted",
    "C44_settings_refuted",
    "C44_percent_refuted"
   ],
   "note": "For nesting that fits the 16 levels and settings that stay fixed inside blocks; the witnesses show the level is lost otherwise."
  },
  {
   "property": "C45",
   "status": "partial",
   "theorems": [
    "C45_slots",
    "C45_locations",
    "C45_mass_coord",
    "C45_advection_refuted"
   ],
   "note": "Whatever locations are assigned, slots are distinct, contiguous and counted correctly; the locations are determined for the shallow-water and nonhydrostatic sets. False for two declared sets: the advection set has no component, so the assignments go outside the array, and the sixth mass-coordinate variable keeps whatever the memory held."
  },
  {
   "property": "C46",
   "status": "proved",
   "theorems": [
    "C46_checksum_state",
    "C46_checksum_tracers",
    "C46_checksum_refused",
    "C46_energy",
    "C46_shallow_water",
    "C46_momentum",
    "C46_other_ranks",
    "C46_distribution",
    "C46_sphere"
   ],
   "note": "Exact arithmetic; any tiling of the domain into patches, any distribution over ranks, any order of the MPI reduction. Data outside the interior of a patch never matters."
  },
  {
   "property": "C47",
   "status": "proved",
   "theorems": [
    "C47_linear",
    "C47_quadratic",
    "C47_cubic",
    "C47_nodes"
   ],
   "note": "over the reals"
  },
  {
   "property": "C48",
   "status": "proved",
   "theorems": [
    "C48_activation",
    "C48_duplicate_refuted"
   ],
   "note": "a patch activated twice stays active after one deactivation"
  },
  {
   "property": "C49",
   "status": "partial",
   "theorems": [
    "C49_lobatto",
    "C49_gauss",
    "C49_gauss9",
    "C49_gauss9_refuted",
    "C49_counts",
    "C49_gauss_roots",
    "C49_lobatto_roots",
    "C49_above_ten"
   ],
   "note": "All tabulated rules except the nine-point Gauss rule, which pairs Gauss weights with Gauss-Lobatto nodes and is wrong already for x^2 (refuted). Above ten points the weights are exact at the roots; how far the nodes left by the loop (polynomial below 1e-14) are from the roots is not bounded."
  },
  {
   "property": "C50",
   "status": "partial",
   "theorems": [
    "C50_interfaces",
    "C50_levels",
    "C50_boundaries",
    "C50_single_refuted",
    "C50_first_output_refuted",
    "C50_reconstructed",
    "C50_average"
   ],
   "note": "Exact arithmetic, neighbouring points at least 1e-11 apart. False for first-order elements in two corners: a single element reads past the levels, and a first output on an interior edge writes past the row; all other cases are proved."
  },
  {
   "property": "C51",
   "status": "partial",
   "theorems": [
    "C51_interfaces",
    "C51_levels",
    "C51_levels_zero",
    "C51_gll",
    "C51_slope",
    "C51_interfaces_reconstructed",
    "C51_levels_reconstructed",
    "C51_layers",
    "C51_flux",
    "C51_boundary_refuted",
    "C51_layers_refuted"
   ],
   "note": "Exact arithmetic, neighbouring points at least 1e-11 apart. At second order the reconstructed derivatives lose even linear functions at the boundaries (refuted). The flux-corrected derivative is exact too (C51_flux, more in C59); the weak derivative is C60."
  },
  {
   "property": "C52",
   "status": "partial",
   "theorems": [
    "C52_contravariant",
    "C52_covariant_refuted",
    "C52_agree_iff"
   ],
   "note": "The diagnostic is the energy of a flow with contravariant velocity (U, V); the dynamics treats them as covariant. Both agree for every state only if the covariant and contravariant metric coefficients coincide."
  },
  {
   "property": "C53",
   "status": "proved",
   "theorems": [
    "C53_mass",
    "C53_tracer",
    "C53_patch",
    "C53_consistent",
    "C53_outside",
    "C53_plane",
    "C53_sphere",
    "C53_stored_weights_refuted"
   ],
   "note": "Exact arithmetic on the doubles of the tables; horizontal orders 2 to 10. The conserved weights are the stored ones, except for order 4, where they are 1/12, 5/12 and the stored ones differ by rounding, so the sum with the stored weights drifts (refuted). On the whole domain the Jacobian is taken to have one value per point. Arrays iDataInitial and iDataUpdate are different."
  },
  {
   "property": "C54",
   "status": "proved",
   "theorems": [
    "C54_energy",
    "C54_vorticity",
    "C54_rest"
   ],
   "note": "Exact arithmetic; per element, before direct stiffness summation; contravariant metric symmetric. The derivative with respect to the step length at zero is the spatial rate of change."
  },
  {
   "property": "C55",
   "status": "proved",
   "theorems": [
    "C55_literals",
    "C55_reference",
    "C55_exact",
    "C55_exact4"
   ],
   "note": "Orders 2 to 10. The fourth order tables are exact up to 2e-15 per unit coefficient; the others are exact for the stored nodes."
  },
  {
   "property": "C56",
   "status": "proved",
   "theorems": [
    "C56_residual",
    "C56_perform",
    "C56_change_refuted",
    "C56_tolerance_refuted"
   ],
   "note": "Exact arithmetic. The documented meaning of the return value and of the absolute tolerance of PerformJFNK is refuted."
  },
  {
   "property": "C57",
   "status": "partial",
   "theorems": [
    "C57_check",
    "C57_header",
    "C57_header_cut",
    "C57_cut_accepted",
    "C57_truncated_refuted"
   ],
   "note": "A wrong check word and every cut inside the header are refused. The rest is false of the code: every cut after the patch data is accepted."
  },
  {
   "property": "C58",
   "status": "partial",
   "theorems": [
    "C58_function",
    "C58_solvable",
    "C58_unique",
    "C58_checks",
    "C58_overrun_refuted"
   ],
   "note": "DGESV is taken to return some solution of its system. For every type up to the order the values are those of the one correction polynomial. False for accepted types above the order: the system is written outside its array (refuted)."
  },
  {
   "property": "C59",
   "status": "partial",
   "theorems": [
    "C59_interpolants",
    "C59_inside",
    "C59_continuous",
    "C59_edge",
    "C59_range",
    "C59_uneven_refuted"
   ],
   "note": "Exact arithmetic, neighbouring points at least 1e-11 apart. Holds for every column except that on an edge between elements of different length the code does not form the mean of the two sides (refuted); the value it does form is given by C59_edge."
  },
  {
   "property": "C60",
   "status": "proved",
   "theorems": [
    "C60_tables",
    "C60_weak",
    "C60_conserves",
    "C60_constant"
   ],
   "note": "Exact arithmetic. The quadrature rules are parameters exact to the degrees needed; the tables up to ten points meet this up to their last digit (C60_tables)."
  },
  {
   "property": "C61",
   "status": "partial",
   "theorems": [
    "C61_interfaces",
    "C61_equal",
    "C61_dissipates",
    "C61_uneven_refuted",
    "C61_levels",
    "C61_levels_balance",
    "C61_levels_refuted"
   ],
   "note": "Exact arithmetic. On interfaces conservation and dissipation hold when the elements have equal length, on levels conservation does. Neither operator conserves when the lengths differ (refuted; the exact imbalance is given). Dissipation on levels is not shown."
  },
  {
   "property": "C62",
   "status": "proved",
   "theorems": [
    "C62_flux",
    "C62_meet",
    "C62_conserves",
    "C62_smooth",
    "C62_single",
    "C62_reconstructed"
   ],
   "note": "Exact arithmetic, neighbouring points at least 1e-11 apart."
  },
  {
   "property": "C63",
   "status": "proved",
   "theorems": [
    "C63_one",
    "C63_value",
    "C63_negative",
    "C63_ends"
   ],
   "note": "Over the real numbers."
  },
  {
   "property": "C64",
   "status": "proved",
   "theorems": [
    "C64_refused",
    "C64_roots",
    "C64_slope_roots",
    "C64_step",
    "C64_slope_step",
    "C64_last",
    "C64_slope_last",
    "C64_count"
   ],
   "note": "Over the real numbers; a division by zero in a pass is an explicit outcome about which nothing is claimed, and convergence of the loop is not claimed: its other exit, after degree plus ten passes, is described."
  },
  {
   "property": "C65",
   "status": "proved",
   "theorems": [
    "C65_column",
    "C65_column_kept",
    "C65_column_refuted",
    "C65_element",
    "C65_element_kept",
    "C65_element_refuted"
   ],
   "note": "Exact arithmetic; the refuted theorems state what happens when the mass is negative."
  },
  {
   "property": "C66",
   "status": "proved",
   "theorems": [
    "C66_weak",
    "C66_mass",
    "C66_constant",
    "C66_dissipation",
    "C66_components",
    "C66_refused",
    "C66_reference_refuted",
    "C66_local"
   ],
   "note": "Exact arithmetic, orders 2 to 10; the reference weights w differ from the code's table by at most 1e-16 for order four. No caller passes the arguments of C66_reference_refuted."
  },
  {
   "property": "C67",
   "status": "proved",
   "theorems": [
    "C67_values",
    "C67_gradient",
    "C67_weak",
    "C67_dissipation",
    "C67_kept",
    "C67_outside"
   ],
   "note": "Exact arithmetic, orders 2 to 10, symmetric metric with J^2 det g = 1 at the nodes."
  },
  {
   "property": "C68",
   "status": "proved",
   "theorems": [
    "C68_contraction",
    "C68_components"
   ],
   "note": "Exact arithmetic."
  },
  {
   "property": "C69",
   "status": "proved",
   "theorems": [
    "C69_refused",
    "C69_frame",
    "C69_off",
    "C69_last",
    "C69_substeps",
    "C69_substep_two_refuted",
    "C69_friction_mean"
   ],
   "note": "Over arbitrary operators on the data of a grid."
  },
  {
   "property": "C70",
   "status": "proved",
   "theorems": [
    "C70_plane",
    "C70_plane_four",
    "C70_sphere",
    "C70_sphere_four"
   ],
   "note": "Exact arithmetic, orders 2 to 10; the Jacobian has one value per point of the domain. Removal of negative tracers is not part of the statement."
  },
  {
   "property": "C71",
   "status": "proved",
   "theorems": [
    "C71_element",
    "C71_plane",
    "C71_sphere"
   ],
   "note": "Exact arithmetic, orders 2 to 10; on the whole domain the Jacobian has one value per point."
  },
  {
   "property": "C72",
   "status": "proved",
   "theorems": [
    "C72_tracer",
    "C72_theta"
   ],
   "note": "rho theta on levels."
  },
  {
   "property": "C73",
   "status": "proved",
   "theorems": [
    "C73_exner",
    "C73_energy",
    "C73_level",
    "C73_vertical"
   ],
   "note": "W on interfaces, rho theta on levels, three dimensions; the terrain slope is the derivative of the height within the element. The vertical step is not part of the budget."
  },
  {
   "property": "C74",
   "status": "partial",
   "theorems": [
    "C74_bottom",
    "C74_frame",
    "C74_rest",
    "C74_isentropic",
    "C74_levels_refuted",
    "C74_interface_heat_refuted"
   ],
   "note": "True with W on interfaces and rho theta on levels; false of the code for W on levels (C74_levels_refuted) and rho theta on interfaces (C74_interface_heat_refuted)."
  },
  {
   "property": "C75",
   "status": "proved",
   "theorems": [
    "C75_tracer",
    "C75_tracer_dissipation",
    "C75_velocity",
    "C75_velocity_dissipation",
    "C75_velocity_steady",
    "C75_scalar"
   ],
   "note": "Exact arithmetic, orders 2 to 10."
  },
  {
   "property": "C76",
   "status": "partial",
   "theorems": [
    "C76_operators",
    "C76_budget",
    "C76_levels",
    "C76_levels_exact",
    "C76_levels_volumes_refuted",
    "C76_root",
    "C76_upwind_refuted",
    "C76_uniform_refuted"
   ],
   "note": "Exact arithmetic. The budget is proved in full; conservation by a root is false of the code with upwinding over varying Jacobians (C76_upwind_refuted) and with uniform diffusion of rho theta (C76_uniform_refuted)."
  },
  {
   "property": "C77",
   "status": "proved",
   "theorems": [
    "C77_newton",
    "C77_ends",
    "C77_explicit"
   ],
   "note": "Exact arithmetic; without upwinding or where the Jacobian is constant, and without uniform diffusion of rho theta (the cases of C76)."
  },
  {
   "property": "C78",
   "status": "partial",
   "theorems": [
    "C78_density",
    "C78_velocity",
    "C78_ends",
    "C78_exact",
    "C78_shear_refuted",
    "C78_uniform_refuted"
   ],
   "note": "The derivative is proved row by row; the code leaves out two terms (C78_shear_refuted, C78_uniform_refuted), so the claim as a whole is false."
  },
  {
   "property": "C79",
   "status": "partial",
   "theorems": [
    "C79_volumes",
    "C79_elements",
    "C79_tracers",
    "C79_short_columns_refuted"
   ],
   "note": "Elements: under the condition that the correction polynomial has no slope at inner interfaces, which Gauss-Lobatto points meet. The tracer array is too small for short columns (C79_short_columns_refuted)."
  },
  {
   "property": "C80",
   "status": "proved",
   "theorems": [
    "C80_balance",
    "C80_keeps"
   ],
   "note": ""
  },
  {
   "property": "C81",
   "status": "partial",
   "theorems": [
    "C81_follows",
    "C81_explicit",
    "C81_content",
    "C81_refused",
    "C81_terms_refuted"
   ],
   "note": "True of StepImplicit and of the fully explicit step; false of StepImplicitTermsExplicitly otherwise (C81_terms_refuted)."
  },
  {
   "property": "C82",
   "status": "partial",
   "theorems": [
    "C82_local",
    "C82_stale_refuted",
    "C82_reference"
   ],
   "note": "False of the code with uniform diffusion of U unless fully explicit."
  },
  {
   "property": "C83",
   "status": "proved",
   "theorems": [
    "C83_shared",
    "C83_solved"
   ],
   "note": "A column is one value; m_nHorizontalOrder at least 2."
  },
  {
   "property": "C84",
   "status": "partial",
   "theorems": [
    "C84_levels",
    "C84_interfaces",
    "C84_uniform",
    "C84_column",
    "C84_interfaces_pass",
    "C84_flat",
    "C84_rejects",
    "C84_range",
    "C84_division_refuted",
    "C84_ninth_refuted",
    "C84_stretch_refuted",
    "C84_base"
   ],
   "note": "Orders with exact tables; the code violates the claim in three configurations (refuted theorems)."
  },
  {
   "property": "C85",
   "status": "partial",
   "theorems": [
    "C85_metric",
    "C85_vectors",
    "C85_flat",
    "C85_two_dimensional",
    "C85_top_refuted"
   ],
   "note": "Proved where the topography is below the top; the code does not check this (C85_top_refuted). The derivatives of the topography are exact here; C89 says when the discrete ones are."
  },
  {
   "property": "C86",
   "status": "proved",
   "theorems": [
    "C86_edges",
    "C86_coriolis"
   ],
   "note": "The height of the topography is assumed equal at the copies."
  },
  {
   "property": "C87",
   "status": "partial",
   "theorems": [
    "C87_metric",
    "C87_ends",
    "C87_positive",
    "C87_ordered",
    "C87_refused",
    "C87_fold_refuted"
   ],
   "note": "Accepted mountains above a third of the top can fold the surfaces (C87_fold_refuted)."
  },
  {
   "property": "C88",
   "status": "partial",
   "theorems": [
    "C88_volume",
    "C88_pressure",
    "C88_pressure_bounds",
    "C88_weight",
    "C88_volume_refuted"
   ],
   "note": "Volumes do not add up on the Cartesian grid over terrain."
  },
  {
   "property": "C89",
   "status": "proved",
   "theorems": [
    "C89_exact",
    "C89_flat",
    "C89_level",
    "C89_plane",
    "C89_shallow"
   ],
   "note": "Exactness excludes the hard-coded order 4, whose rounding is bounded by C55_exact4."
  },
  {
   "property": "C90",
   "status": "partial",
   "theorems": [
    "C90_middle",
    "C90_middle_refuted",
    "C90_strength",
    "C90_strength_refuted"
   ],
   "note": "False of the code for domains not starting at zero and for the top interface."
  },
  {
   "property": "C91",
   "status": "proved",
   "theorems": [
    "C91_backward",
    "C91_slope"
   ],
   "note": "Over R; pressure and slope are evaluated at the argument."
  },
  {
   "property": "C92",
   "status": "proved",
   "theorems": [
    "C92_column",
    "C92_leak"
   ],
   "note": "The hypothesis on the unfilled entry of m_dA holds after Allocate as long as dgtsv leaves the last sub-diagonal entry alone, as the reference LAPACK does."
  },
  {
   "property": "C93",
   "status": "proved",
   "theorems": [
    "C93_elimination",
    "C93_small",
    "C93_rest"
   ],
   "note": ""
  },
  {
   "property": "C94",
   "status": "proved",
   "theorems": [
    "C94_element",
    "C94_vertical",
    "C94_theta"
   ],
   "note": ""
  },
  {
   "property": "C95",
   "status": "partial",
   "theorems": [
    "C95_units",
    "C95_vertical",
    "C95_vertical_refuted"
   ],
   "note": "False of the code for rho w."
  },
  {
   "property": "C96",
   "status": "partial",
   "theorems": [
    "C96_work",
    "C96_rest",
    "C96_uniform",
    "C96_frame",
    "C96_top_refuted",
    "C96_crossing",
    "C96_shear"
   ],
   "note": "False of the code for the combination on the top interface."
  },
  {
   "property": "C97",
   "status": "partial",
   "theorems": [
    "C97_friction",
    "C97_profile",
    "C97_sigma_refuted",
    "C97_layer_refuted"
   ],
   "note": "False of the code for the pressure in the friction."
  },
  {
   "property": "C98",
   "status": "partial",
   "theorems": [
    "C98_step",
    "C98_sign",
    "C98_warming",
    "C98_cooling",
    "C98_overshoot_refuted"
   ],
   "note": "False of the code for cooling with long steps."
  },
  {
   "property": "C99",
   "status": "partial",
   "theorems": [
    "C99_ranges",
    "C99_maximum_refuted",
    "C99_local",
    "C99_rest",
    "C99_rates",
    "C99_column"
   ],
   "note": "False of the code for the maximum above the reference pressure."
  },
  {
   "property": "C100",
   "status": "proved",
   "theorems": [
    "C100_conserves",
    "C100_exact",
    "C100_positive",
    "C100_equilibrium",
    "C100_monotone",
    "C100_compose",
    "C100_source"
   ],
   "note": ""
  },
  {
   "property": "C101",
   "status": "partial",
   "theorems": [
    "C101_run",
    "C101_index_refuted",
    "C101_degrees"
   ],
   "note": "False of the code for the addressed cell."
  },
  {
   "property": "C102",
   "status": "partial",
   "theorems": [
    "C102_positive",
    "C102_energy",
    "C102_water",
    "C102_exact",
    "C102_courant",
    "C102_saturation",
    "C102_dry",
    "C102_top_refuted",
    "C102_long_refuted"
   ],
   "note": "False of the code for exact conservation in all columns."
  },
  {
   "property": "C103",
   "status": "partial",
   "theorems": [
    "C103_exner",
    "C103_dry",
    "C103_positive",
    "C103_neutral",
    "C103_level",
    "C103_loss",
    "C103_water_refuted",
    "C103_rain"
   ],
   "note": "False of the code for the water balance."
  },
  {
   "property": "C104",
   "status": "proved",
   "theorems": [
    "C104_dry",
    "C104_neutral"
   ],
   "note": ""
  },
  {
   "property": "C105",
   "status": "partial",
   "theorems": [
    "C105_every",
    "C105_step",
    "C105_period_refuted"
   ],
   "note": "False of the code for periods other than one step."
  },
  {
   "property": "C106",
   "status": "partial",
   "theorems": [
    "C106_element",
    "C106_polynomial",
    "C106_node",
    "C106_shared_edge",
    "C106_reference",
    "C106_vertical_partial",
    "C106_vertical_node",
    "C106_vertical_refuted",
    "C106_tracer",
    "C106_tracer_refuted",
    "C106_reference_refuted"
   ],
   "note": "False of the code for component 3."
  },
  {
   "property": "C107",
   "status": "partial",
   "theorems": [
    "C107_coordinates",
    "C107_cubed_sphere",
    "C107_cartesian_partial",
    "C107_empty_refuted",
    "C107_gather"
   ],
   "note": "False of the code for empty patches."
  },
  {
   "property": "C108",
   "status": "partial",
   "theorems": [
    "C108_conditions",
    "C108_interfaces_partial",
    "C108_frame",
    "C108_unknown",
    "C108_set",
    "C108_halo_refuted",
    "C108_levels_refuted",
    "C108_exchanged_refuted"
   ],
   "note": "False of the code: see the refuted theorems. Corner nodes of the outermost line are not covered by the positive statements."
  },
  {
   "property": "C109",
   "status": "partial",
   "theorems": [
    "C109_neutral",
    "C109_strat",
    "C109_isothermal",
    "C109_bubble",
    "C109_pressure_refuted",
    "C109_current",
    "C109_rim_refuted",
    "C109_gravity",
    "C109_weightless_refuted"
   ],
   "note": "False of the code for the perturbed states: see the refuted theorems."
  },
  {
   "property": "C110",
   "status": "partial",
   "theorems": [
    "C110_strength",
    "C110_range",
    "C110_monotone",
    "C110_no_depth",
    "C110_sphere",
    "C110_hydrostatic_refuted"
   ],
   "note": "False of the code for the left layer of HydrostaticMountain."
  },
  {
   "property": "C111",
   "status": "proved",
   "theorems": [
    "C111_rossby",
    "C111_wave",
    "C111_schar",
    "C111_inert",
    "C111_still",
    "C111_baldauf",
    "C111_surface",
    "C111_umjs"
   ],
   "note": ""
  },
  {
   "property": "C112",
   "status": "partial",
   "theorems": [
    "C112_rossby",
    "C112_wave",
    "C112_schar",
    "C112_rotation_refuted",
    "C112_inert",
    "C112_umjs",
    "C112_still"
   ],
   "note": "False of the code for ScharMountainSphere with rotation."
  },
  {
   "property": "C113",
   "status": "proved",
   "theorems": [
    "C113_levels",
    "C113_ground",
    "C113_unique",
    "C113_hydrostatic",
    "C113_wind"
   ],
   "note": ""
  },
  {
   "property": "C114",
   "status": "partial",
   "theorems": [
    "C114_levels",
    "C114_wind",
    "C114_ridge_refuted",
    "C114_sponge_refuted",
    "C114_mean",
    "C114_sides_refuted",
    "C114_shear",
    "C114_join"
   ],
   "note": "False of the code: see the refuted theorems."
  },
  {
   "property": "C115",
   "status": "partial",
   "theorems": [
    "C115_outcome",
    "C115_residual",
    "C115_shear",
    "C115_state"
   ],
   "note": "False of the code: the range check is never reached. That the iterations allowed suffice is not proved."
  },
  {
   "property": "C116",
   "status": "partial",
   "theorems": [
    "C116_steady",
    "C116_grid",
    "C116_inclination_refuted",
    "C116_mountain",
    "C116_wrap_refuted"
   ],
   "note": "False of the code: see the refuted theorems."
  },
  {
   "property": "C117",
   "status": "proved",
   "theorems": [
    "C117_wave"
   ],
   "note": ""
  },
  {
   "property": "C118",
   "status": "partial",
   "theorems": [
    "C118_turn",
    "C118_wind",
    "C118_meridian_refuted",
    "C118_profile",
    "C118_integral",
    "C118_balance"
   ],
   "note": "False of the code on one meridian and on the edges of the belt."
  },
  {
   "property": "C119",
   "status": "partial",
   "theorems": [
    "C119_mass",
    "C119_theta",
    "C119_rest",
    "C119_units",
    "C119_vertical",
    "C119_vertical_refuted",
    "C119_continuity",
    "C119_weight"
   ],
   "note": "False of the code for the vertical flux of rho w."
  },
  {
   "property": "C120",
   "status": "partial",
   "theorems": [
    "C120_column",
    "C120_refuted",
    "C120_stale",
    "C120_stale_refuted",
    "C120_force"
   ],
   "note": "False of the code: see the refuted theorems."
  },
  {
   "property": "C121",
   "status": "proved",
   "theorems": [
    "C121_mass",
    "C121_theta"
   ],
   "note": ""
  },
  {
   "property": "C122",
   "status": "partial",
   "theorems": [
    "C122_first",
    "C122_impulse",
    "C122_impulse_refuted",
    "C122_short",
    "C122_unique",
    "C122_slope",
    "C122_steady"
   ],
   "note": "False of the code for rho w."
  },
  {
   "property": "C123",
   "status": "partial",
   "theorems": [
    "C123_residual",
    "C123_search",
    "C123_single",
    "C123_restart",
    "C123_refuted",
    "C123_solved_refuted",
    "C123_unassigned",
    "C123_silent"
   ],
   "note": "False of the code: see the refuted theorems."
  },
  {
   "property": "C124",
   "status": "partial",
   "theorems": [
    "C124_elimination",
    "C124_exact",
    "C124_complete",
    "C124_jacobian",
    "C124_code_exact",
    "C124_refuted",
    "C124_code",
    "C124_few"
   ],
   "note": "Proved for vertical orders four and six; false of the code at order two."
  },
  {
   "property": "C125",
   "status": "partial",
   "theorems": [
    "C125_single",
    "C125_constant",
    "C125_beta",
    "C125_refuted",
    "C125_uniform_refuted",
    "C125_outside"
   ],
   "note": "False of the code: the copies use the wrong order of indices."
  },
  {
   "property": "C126",
   "status": "partial",
   "theorems": [
    "C126_record",
    "C126_unnamed",
    "C126_average",
    "C126_forward",
    "C126_scope",
    "C126_blocked",
    "C126_refuted",
    "C126_forget_refuted",
    "C126_wrap_refuted"
   ],
   "note": "False of the code for stopped timers and empty groups: see the refuted theorems."
  },
  {
   "property": "C127",
   "status": "partial",
   "theorems": [
    "C127_saturation",
    "C127_level",
    "C127_saturated",
    "C127_column",
    "C127_budget_refuted"
   ],
   "note": "False of the code for the water budget: rain is the vapour lost weighted by 1 - q. All else proved."
  },
  {
   "property": "C128",
   "status": "proved",
   "theorems": [
    "C128_drag",
    "C128_mixing",
    "C128_fluxes"
   ],
   "note": ""
  },
  {
   "property": "C129",
   "status": "partial",
   "theorems": [
    "C129_mixing",
    "C129_pressure",
    "C129_layer",
    "C129_stops",
    "C129_supercell",
    "C129_physics",
    "C129_vapour_refuted"
   ],
   "note": "False of the code for the mass of vapour; all else proved (C129_physics for large-scale precipitation)."
  },
  {
   "property": "C130",
   "status": "partial",
   "theorems": [
    "C130_derivative",
    "C130_matrix",
    "C130_other",
    "C130_gradient_refuted",
    "C130_upwind_refuted",
    "C130_rest"
   ],
   "note": "False of the code where level and interface differ in their radial derivative and for upwinding over slopes (C130_gradient_refuted, C130_upwind_refuted); C130_derivative gives the exact derivative for every entry, C130_matrix and C130_other where it is the entry."
  },
  {
   "property": "C131",
   "status": "partial",
   "theorems": [
    "C131_difference",
    "C131_ratio",
    "C131_ratio_refuted",
    "C131_outside",
    "C131_content"
   ],
   "note": "False of the code as it reads the Jacobian with permuted indices (C131_ratio_refuted, C131_outside); C131_ratio proves it where the values read are those of the column, C131_difference gives the exact difference otherwise, C131_content proves that the content is kept whatever is read."
  },
  {
   "property": "C132",
   "status": "partial",
   "theorems": [
    "C132_lower",
    "C132_defined",
    "C132_back",
    "C132_case",
    "C132_plane",
    "C132_stretch_refuted",
    "C132_help",
    "C132_nothing_else",
    "C132_flags",
    "C132_restart",
    "C132_output"
   ],
   "note": "False of the code for --vstretch on the plane (C132_stretch_refuted); C132_plane proves it there for the other options, C132_case on the sphere for all."
  },
  {
   "property": "C133",
   "status": "partial",
   "theorems": [
    "C133_skip",
    "C133_stop",
    "C133_inside",
    "C133_backwards",
    "C133_order_refuted",
    "C133_round_trip",
    "C133_largest_refuted",
    "C133_too_large",
    "C133_refused"
   ],
   "note": "False of the code for the order of the digits (C133_order_refuted: right exactly for palindromes) and the largest numbers (C133_largest_refuted); C133_backwards gives what is read, C133_round_trip that numbers written with the last digit first are read back; C133_too_large and C133_refused the other outcomes."
  },
  {
   "property": "C134",
   "status": "partial",
   "theorems": [
    "C134_hydrostatic",
    "C134_above",
    "C134_above_refuted",
    "C134_wind",
    "C134_cyclonic",
    "C134_tangent",
    "C134_ground",
    "C134_tropopause_refuted",
    "C134_newton",
    "C134_pressure_back",
    "C134_distance",
    "C134_humidity",
    "C134_stratosphere"
   ],
   "note": "False of the code above the tropopause for the vertical balance (C134_above_refuted, C134_above gives the factor) and at the tropopause for continuity (C134_tropopause_refuted gives the jump); everything else is proved. The iteration's convergence is not treated."
  },
  {
   "property": "C135",
   "status": "partial",
   "theorems": [
    "C135_radial",
    "C135_meridional",
    "C135_jet",
    "C135_shallow",
    "C135_ground",
    "C135_pressure",
    "C135_pressure_refuted",
    "C135_humidity",
    "C135_taper",
    "C135_edge_refuted",
    "C135_outside",
    "C135_poles",
    "C135_circle"
   ],
   "note": "False of the code for moist air (C135_pressure_refuted; C135_pressure gives the factor) and for the continuity of the perturbation (C135_edge_refuted); everything else is proved. In the deep atmosphere further from the axis than the radius the balances are proved for every jet that exists and positive temperature, the existence is not."
  },
  {
   "property": "C136",
   "status": "proved",
   "theorems": [
    "C136_wind",
    "C136_wind_only",
    "C136_theta",
    "C136_humidity",
    "C136_bubble",
    "C136_centre",
    "C136_state",
    "C136_fit",
    "C136_symmetric",
    "C136_height",
    "C136_height_linear",
    "C136_height_range"
   ],
   "note": "For arbitrary tables; that the tables of supercell_init solve the balances is not claimed."
  }
 ]
}