{
 "claims": [
  {
   "property": "C01",
   "status": "proved",
   "theorems": [
    "C01_range_iteration_exact"
   ],
   "note": ""
  },
  {
   "property": "C02",
   "status": "partial",
   "theorems": [
    "C02_empty_range_iteration_refuted",
    "C02_range_iteration_terminates_partial"
   ],
   "note": "The code violates the full property. Every range is visited at least once, also an empty one. Proved instead: the loop always ends and visits an empty dimension as its lower coordinate."
  },
  {
   "property": "C03",
   "status": "proved",
   "theorems": [
    "C03_forEach_C_exact",
    "C03_forEach_Fortran_exact",
    "C03_forEach_empty"
   ],
   "note": ""
  },
  {
   "property": "C04",
   "status": "proved",
   "theorems": [
    "C04_inside",
    "C04_growv",
    "C04_grow",
    "C04_shrinkv",
    "C04_projectDim",
    "C04_project"
   ],
   "note": ""
  },
  {
   "property": "C05",
   "status": "proved",
   "theorems": [
    "C05_c_order_bijection",
    "C05_allocation_size"
   ],
   "note": ""
  },
  {
   "property": "C06",
   "status": "proved",
   "theorems": [
    "C06_fortran_order_bijection"
   ],
   "note": ""
  },
  {
   "property": "C07",
   "status": "partial",
   "theorems": [
    "C07_wrapped_bias_exact_partial",
    "C07_c_order_bias_overflow_refuted"
   ],
   "note": "The code violates the full property. In C order the bias overflows in signed arithmetic for an allocatable shape. Proved: exact addresses in Fortran order for all bounds, in C order whenever the bias does not overflow."
  },
  {
   "property": "C08",
   "status": "proved",
   "theorems": [
    "C08_strides_address_neighbours"
   ],
   "note": ""
  },
  {
   "property": "C09",
   "status": "proved",
   "theorems": [
    "C09_grid_is_map",
    "C09_reads_defined"
   ],
   "note": ""
  },
  {
   "property": "C10",
   "status": "proved",
   "theorems": [
    "C10_copies_share"
   ],
   "note": ""
  },
  {
   "property": "C11",
   "status": "partial",
   "theorems": [
    "C11_any_assignment_partial",
    "C11_dangling_resize",
    "C11_foreign_resize",
    "C11_assignment_detaches_refuted",
    "C11_assignment_partial"
   ],
   "note": "The code violates the full property. Assignment leaves the target registered with the grids it shared data with. Proved for all programs, with any assignments, in which no resize meets a grid that has left the group by assignment; a resize that does is proved to be undefined behaviour (the grid is gone) or to change the bounds of that grid."
  },
  {
   "property": "C12",
   "status": "partial",
   "theorems": [
    "C12_any_assignment_partial",
    "C12_lazy_has_room_partial",
    "C12_lazy_assign_overrun_refuted"
   ],
   "note": "The code violates the full property. The lazy allocation keeps its buffer size over an assignment. Proved for all programs, with any assignments, in which no resize meets a grid that has left the group or is asked of a grid that kept the buffer size of another group, whatever the growth heuristics."
  },
  {
   "property": "C13",
   "status": "partial",
   "theorems": [
    "C13_any_assignment_partial",
    "C13_dangling_resize",
    "C13_told_bounds",
    "C13_untold_bounds",
    "C13_separate_values",
    "C13_kokkos_copies_refuted",
    "C13_kokkos_assignment_refuted",
    "C13_kokkos_partial"
   ],
   "note": "The code violates the full property. Resizing one of two copies leaves the other inconsistent, and assignment does not register the target for resizes. Proved (all observations agree with ShareSpec) for programs, with any assignments, that resize only grids that are alone in their group and known to it; for all other resizes it is proved what goes wrong."
  },
  {
   "property": "C14",
   "status": "proved",
   "theorems": [
    "C14_debug_check",
    "C14_debug_nearest",
    "C14_debug_check_history",
    "C14_assert_check"
   ],
   "note": ""
  },
  {
   "property": "C15",
   "status": "proved",
   "theorems": [
    "C15_fill",
    "C15_same_storage",
    "C15_mixed_storage"
   ],
   "note": ""
  },
  {
   "property": "C16",
   "status": "partial",
   "theorems": [
    "C16_safe_iff_source_not_larger_partial",
    "C16_overrun_refuted"
   ],
   "note": "The code violates the full property. a += b overruns a larger b. Proved: exactly when it stays inside."
  },
  {
   "property": "C17",
   "status": "partial",
   "theorems": [
    "C17_elementwise_alias_safe",
    "C17_mixed_types_refuted"
   ],
   "note": "The code violates the full property. Operands of different component types are computed in the type of the right operand. The alias safety part holds in full."
  },
  {
   "property": "C18",
   "status": "partial",
   "theorems": [
    "C18_comparisons_partial",
    "C18_nan_refuted",
    "C18_doubles_exact",
    "C18_product_sum"
   ],
   "note": "The code violates the full property. NaN components. Proved for every component type with a total order, products and sums included; C18_doubles_exact says what the operators mean on all doubles."
  },
  {
   "property": "C19",
   "status": "partial",
   "theorems": [
    "C19_field_layout_partial",
    "C19_inner_cells_inside",
    "C19_copy_keeps_ghost_width_refuted",
    "C19_shared_layout",
    "C19_inner_exactly"
   ],
   "note": "The code violates the full property. A copy of a field does not follow the ghost width of a resize. What every field shows is proved for all programs in which resizes find the fields they tell alive and in the group (C19_shared_layout), and that a field shows the inner range last asked for if and only if its own ghost width is the one last asked for (C19_inner_exactly)."
  },
  {
   "property": "C20",
   "status": "partial",
   "theorems": [
    "C20_positions",
    "C20_round_trip_exact_partial",
    "C20_index_left_of_position",
    "C20_binary64_refuted",
    "C20_positions_rounded",
    "C20_round_trip_rounded_partial",
    "C20_index_rounded",
    "C20_floor"
   ],
   "note": "The code violates the full property. In binary64 index 1 of 49 cells comes back as 0. Proved in exact arithmetic; positions and the index left of any position in full. In rounded arithmetic the round trip returns i with an offset near 0 or i-1 with an offset near 1, for up to 2^31 cells and domains within 2^40 cells of zero; C20_floor shows that the floor taken of a binary64 number is its floor."
  },
  {
   "property": "C21",
   "status": "partial",
   "theorems": [
    "C21_view_history_partial",
    "C21_checked_write_confined",
    "C21_outside_exact",
    "C21_arithmetic_confined",
    "C21_arithmetic_cellwise",
    "C21_dims_after_construction",
    "C21_view_from_size",
    "C21_dims_after_resize_refuted",
    "C21_reports_exact"
   ],
   "note": "The code violates the full property. A resized view reports its old extents (C21_reports_exact: always those it was constructed with). Everything else is proved for all histories."
  },
  {
   "property": "C22",
   "status": "proved",
   "theorems": [
    "C22_partition",
    "C22_ghosts_in_domain",
    "C22_inner_domain",
    "C22_source_regions"
   ],
   "note": ""
  },
  {
   "property": "C23",
   "status": "partial",
   "theorems": [
    "C23_serial_exchange_periodic_partial",
    "C23_image_unique",
    "C23_inner_is_own_image",
    "C23_zero_ghosts_refuted"
   ],
   "note": "The code violates the full property. With ghost width zero the exchange leaves the grid. Proved for all ghost widths from one."
  },
  {
   "property": "C24",
   "status": "partial",
   "theorems": [
    "C24_exchange_idempotent_partial",
    "C24_narrow_domain_refuted"
   ],
   "note": "The code violates the full property. Inner extents below the ghost width. Proved for all others."
  },
  {
   "property": "C25",
   "status": "partial",
   "theorems": [
    "C25_accumulate_partial",
    "C25_accumulate_all_dimensions_partial",
    "C25_images_exist",
    "C25_overlapping_sources_refuted"
   ],
   "note": "The code violates the full property. Inner extents below twice the ghost width. Proved for all others, in one dimension and over all dimensions."
  },
  {
   "property": "C26",
   "status": "partial",
   "theorems": [
    "C26_tiling_partial",
    "C26_exact_cuts",
    "C26_binary64_cuts",
    "C26_process_grid",
    "C26_lower_bound_refuted"
   ],
   "note": "The code violates the full property. The lower bound of the domain is ignored. Proved for domains that start at zero, for any monotone cuts, and that exact and binary64 cuts are such."
  },
  {
   "property": "C27",
   "status": "partial",
   "theorems": [
    "C27_enough_cells",
    "C27_enough_cells_binary64",
    "C27_exchange_partial",
    "C27_zero_ghosts_refuted",
    "C27_narrow_refuted"
   ],
   "note": "The code violates the full property. Ghost width zero overruns the send buffer, processes narrower than the ghost width pass on stale values. Proved for all others under every schedule; C27_enough_cells gives a number of cells that suffices."
  },
  {
   "property": "C28",
   "status": "proved",
   "theorems": [
    "C28_unique_ids"
   ],
   "note": ""
  },
  {
   "property": "C29",
   "status": "proved",
   "theorems": [
    "C29_equal_factors"
   ],
   "note": ""
  },
  {
   "property": "C30",
   "status": "partial",
   "theorems": [
    "C30_neighbours_meet",
    "C30_edges_rounded_partial",
    "C30_upper_end_refuted",
    "C30_extents_tile_partial",
    "C30_field_positions",
    "C30_serial_refuted",
    "C30_serial_exact",
    "C30_lower_bound_refuted",
    "C30_lower_bound_exact"
   ],
   "note": "The code violates the full property. The serial subdivision counts ghost cells (C30_serial_exact says what part of the domain it covers), the lower bound is not subtracted (C30_lower_bound_exact: the extents are right exactly when it is zero), and in doubles the last extent may end before the upper end (C30_upper_end_refuted). Proved in exact arithmetic for domains that start at zero; in any arithmetic that neighbours meet exactly; in doubles the edges up to a few units in the last place."
  },
  {
   "property": "C31",
   "status": "partial",
   "theorems": [
    "C31_round_trip_partial",
    "C31_large_refuted"
   ],
   "note": "The code violates the full property. Sizes from 2 GB overflow. Proved below that."
  },
  {
   "property": "C32",
   "status": "proved",
   "theorems": [
    "C32_conventional_reading",
    "C32_accepted"
   ],
   "note": ""
  },
  {
   "property": "C33",
   "status": "partial",
   "theorems": [
    "C33_mixed_types_partial",
    "C33_left_to_right_refuted"
   ],
   "note": "The code violates the full property. 1.5 - 3 - 2 is 0.5. Proved for chains of one type and for chains in which one of the last two operands has the largest type."
  },
  {
   "property": "C34",
   "status": "proved",
   "theorems": [
    "C34_larger_type",
    "C34_expression_type",
    "C34_value_type",
    "C34_promotion_never_fails",
    "C34_assignment_converts"
   ],
   "note": ""
  },
  {
   "property": "C35",
   "status": "proved",
   "theorems": [
    "C35_constants",
    "C35_dependencies",
    "C35_deck_expressions"
   ],
   "note": ""
  },
  {
   "property": "C36",
   "status": "proved",
   "theorems": [
    "C36_scan",
    "C36_division_unique",
    "C36_buffer_independent"
   ],
   "note": ""
  },
  {
   "property": "C37",
   "status": "partial",
   "theorems": [
    "C37_terminates_partial",
    "C37_long_name_refuted",
    "C37_long_line_comment_refuted"
   ],
   "note": "The code violates the full property. Tokens and line comments that fill the buffer never end the scan. Proved: the scan ends if and only if there is none."
  },
  {
   "property": "C38",
   "status": "partial",
   "theorems": [
    "C38_nothing_ignored_partial",
    "C38_unclosed_comment_refuted",
    "C38_unclosed_string_refuted",
    "C38_illegal_text_refuted"
   ],
   "note": "The code violates the full property. Unclosed comments and strings and illegal text at the end are dropped silently. Proved: nothing else is."
  },
  {
   "property": "C39",
   "status": "partial",
   "theorems": [
    "C39_comments_partial",
    "C39_last_line_comment_refuted"
   ],
   "note": "The code violates the full property. A line comment that is not ended by a newline. Proved for all other comments."
  },
  {
   "property": "C40",
   "status": "partial",
   "theorems": [
    "C40_accepted_is_sentence_partial",
    "C40_accepted_ends_with_sentence_partial",
    "C40_accepted_sentence_performed",
    "C40_accepted_no_sentence_refuted",
    "C40_short_statements"
   ],
   "note": "The code violates the full property. When the stack of the parser overflows it drops what is pending and may accept the rest. Proved for all inputs with at most 99 pending symbols, and that the end of anything accepted is a sentence."
  },
  {
   "property": "C41",
   "status": "partial",
   "theorems": [
    "C41_sentence_accepted_partial",
    "C41_short_statements_accepted_partial",
    "C41_sentence_or_error_partial",
    "C41_sum_of_fifty_refuted"
   ],
   "note": "The code violates the full property. A sum of fifty operands overflows the stack of the parser. Proved for all inputs with at most 99 pending symbols; any sentence is accepted or reported."
  },
  {
   "property": "C42",
   "status": "partial",
   "theorems": [
    "C42_error_reported_partial",
    "C42_always_ends",
    "C42_early_end_refuted"
   ],
   "note": "The code violates the full property. An early end of input lets another exception escape. Proved for all other inputs."
  },
  {
   "property": "C43",
   "status": "partial",
   "theorems": [
    "C43_closing_brace",
    "C43_opening_brace_refuted",
    "C43_opening_brace_partial"
   ],
   "note": "The code violates the full property. Missing closing braces are not reported. Closing braces are proved in full; with missing ones the number of open blocks is proved."
  },
  {
   "property": "C44",
   "status": "proved",
   "theorems": [
    "C44_lookup"
   ],
   "note": ""
  },
  {
   "property": "C45",
   "status": "partial",
   "theorems": [
    "C45_local_partial",
    "C45_upward_partial",
    "C45_upward_refuted"
   ],
   "note": "The code violates the full property. exists() never looks upward and uses a null pointer at the root. Proved: the local form, and exactly what the upward form does."
  },
  {
   "property": "C46",
   "status": "proved",
   "theorems": [
    "C46_declaration",
    "C46_redeclaration",
    "C46_assignment",
    "C46_never_changes",
    "C46_end",
    "C46_text"
   ],
   "note": ""
  },
  {
   "property": "C47",
   "status": "proved",
   "theorems": [
    "C47_objects",
    "C47_text",
    "C47_any_text"
   ],
   "note": ""
  },
  {
   "property": "C48",
   "status": "partial",
   "theorems": [
    "C48_early_use_refuted",
    "C48_final_values_partial",
    "C48_text_partial"
   ],
   "note": "The code violates the full property. A parameter used before its value is given has its default. Proved: the values at the end of parsing."
  },
  {
   "property": "C49",
   "status": "proved",
   "theorems": [
    "C49_update_list"
   ],
   "note": ""
  },
  {
   "property": "C50",
   "status": "proved",
   "theorems": [
    "C50_update",
    "C50_value_determined"
   ],
   "note": ""
  },
  {
   "property": "C51",
   "status": "proved",
   "theorems": [
    "C51_update_minimal"
   ],
   "note": ""
  },
  {
   "property": "C52",
   "status": "proved",
   "theorems": [
    "C52_accepted_acyclic",
    "C52_accepted_acyclic_state",
    "C52_cycle_asserts",
    "C52_acyclic_ends"
   ],
   "note": ""
  },
  {
   "property": "C53",
   "status": "partial",
   "theorems": [
    "C53_recreate_refuted",
    "C53_recreate_partial"
   ],
   "note": "The code violates the full property. recreate() throws for every deck with a variable that is not constant. Proved: exactly when it works."
  },
  {
   "property": "C54",
   "status": "proved",
   "theorems": [
    "C54_fill",
    "C54_value_determined",
    "C54_fill_for"
   ],
   "note": ""
  },
  {
   "property": "C55",
   "status": "partial",
   "theorems": [
    "C55_phases_partial",
    "C55_deck_tree",
    "C55_deep_receiver_partial",
    "C55_receiver_refuted",
    "C55_text"
   ],
   "note": "The code violates the full property. initAll of a block two or more levels below the root never returns. Proved in full for the root and its children, with the tree made by any deck."
  },
  {
   "property": "C56",
   "status": "partial",
   "theorems": [
    "C56_registered",
    "C56_nearest",
    "C56_elsewhere",
    "C56_paths",
    "C56_pointer_partial",
    "C56_pointer_refuted"
   ],
   "note": "The code violates the full property. Pointers to data registered as pointers win however far away they are. The other forms of retrieval are proved in full, this one exactly."
  },
  {
   "property": "C57",
   "status": "proved",
   "theorems": [
    "C57_calls"
   ],
   "note": ""
  },
  {
   "property": "C58",
   "status": "partial",
   "theorems": [
    "C58_step_partial",
    "C58_run",
    "C58_zero_refuted",
    "C58_every_diagnostic"
   ],
   "note": "The code violates the full property. Interval zero divides by zero. Proved for all other intervals, also for every diagnostic of a whole run (C58_every_diagnostic)."
  },
  {
   "property": "C59",
   "status": "partial",
   "theorems": [
    "C59_double_arithmetic",
    "C59_numbered",
    "C59_once_per_period_partial",
    "C59_rounded_partial",
    "C59_doubles_rounded",
    "C59_late_start_refuted",
    "C59_adjusted_step_partial",
    "C59_exact_times_partial",
    "C59_adjusted_double_partial",
    "C59_adjusted_double_refuted",
    "C59_every_diagnostic"
   ],
   "note": "The code violates the full property. Late starts make two outputs in a period; adjusted steps overshoot in doubles. Proved in exact and in rounded arithmetic, and for doubles under a bound on the distance to the next output. Every diagnostic of a whole run goes through its own schedule (C59_every_diagnostic). C59_double_arithmetic: the rounded numbers are those of the machine."
  },
  {
   "property": "C60",
   "status": "partial",
   "theorems": [
    "C60_distinct_partial",
    "C60_adjacent_refuted",
    "C60_parallel",
    "C60_append_refuted"
   ],
   "note": "The code violates the full property. Names collide if only digits separate the place holders; appending diagnostics do not replace them. Proved for all other patterns."
  },
  {
   "property": "C61",
   "status": "partial",
   "theorems": [
    "C61_sources_partial",
    "C61_null_pointer_refuted",
    "C61_adjust"
   ],
   "note": "The code violates the full property. A diagnostic without its source of time uses a null pointer. Proved: exactly when, and that nothing else goes wrong."
  },
  {
   "property": "C62",
   "status": "proved",
   "theorems": [
    "C62_bibtex",
    "C62_information"
   ],
   "note": ""
  },
  {
   "property": "C63",
   "status": "partial",
   "theorems": [
    "C63_arguments_partial",
    "C63_misplaced_refuted",
    "C63_positions_partial"
   ],
   "note": "The code violates the full property. Schools and organizations are stored as editions. Proved for all other arguments, by name and by position in the declared order (C63_positions_partial)."
  },
  {
   "property": "C64",
   "status": "partial",
   "theorems": [
    "C64_cross_product_partial",
    "C64_aliased_result_refuted",
    "C64_exact",
    "C64_aliased_left",
    "C64_aliased_right",
    "C64_self"
   ],
   "note": "The code violates the full property. The result must not be an operand. Proved for all other results; C64_exact says what is stored under every aliasing, C64_aliased_left and C64_aliased_right for which integers that is right."
  },
  {
   "property": "C65",
   "status": "partial",
   "theorems": [
    "C65_exact_partial",
    "C65_doubles_partial",
    "C65_last_draw_refuted",
    "C65_bits_refuted"
   ],
   "note": "The code violates the full property. The last draws give the range itself. Proved exactly which draws stay below it in exact arithmetic, and in doubles for second draws up to RAND_MAX - 2."
  },
  {
   "property": "C66",
   "status": "partial",
   "theorems": [
    "C66_accumulate_partial",
    "C66_zero_ghosts_refuted",
    "C66_overlapping_refuted"
   ],
   "note": "The code violates the full property. Ghost width zero, inner extents below twice the ghost width. Proved for all others under every schedule; C27_enough_cells gives a number of cells that suffices."
  },
  {
   "property": "C67",
   "status": "proved",
   "theorems": [
    "C67_exchange_data"
   ],
   "note": ""
  },
  {
   "property": "C68",
   "status": "proved",
   "theorems": [
    "C68_boundary_cells_of_fields",
    "C68_unstaggered"
   ],
   "note": ""
  },
  {
   "property": "C69",
   "status": "partial",
   "theorems": [
    "C69_update_all_partial",
    "C69_update_all_later_refuted"
   ],
   "note": "The code violates the full property. updateAll() after an update that reached a constant fails. Proved for new maps."
  },
  {
   "property": "C70",
   "status": "partial",
   "theorems": [
    "C70_choice_partial",
    "C70_constant_independent_refuted"
   ],
   "note": "The code violates the full property. A constant as independent variable is a null pointer. Proved for all choices of variables that are not constant."
  },
  {
   "property": "C71",
   "status": "partial",
   "theorems": [
    "C71_name_operator_partial",
    "C71_name_e_refuted"
   ],
   "note": "The code violates the full property. A name e before an operator and a digit is read as an exponent. Proved for all other names."
  },
  {
   "property": "C72",
   "status": "partial",
   "theorems": [
    "C72_statements_executed_partial",
    "C72_statements_or_error_partial",
    "C72_accepted_executed",
    "C72_accepted_is_statements_partial",
    "C72_short_statements",
    "C72_fifty_operands_refuted",
    "C72_dropped_tokens_refuted"
   ],
   "note": "The code violates the full property. Sums of fifty operands are rejected, and a deck that is no list of statements is accepted after a stack overflow. Proved for all decks with at most 99 pending symbols, in particular statements of at most 97 tokens; beyond, that only stretches of 99 tokens and more within statements are dropped."
  },
  {
   "property": "C73",
   "status": "proved",
   "theorems": [
    "C73_restricted_blocks",
    "C73_text"
   ],
   "note": ""
  },
  {
   "property": "C74",
   "status": "partial",
   "theorems": [
    "C74_root_partial",
    "C74_root_refuted",
    "C74_text_partial"
   ],
   "note": "The code violates the full property. Without an implementation of the root class only the first object is returned. Proved with one."
  },
  {
   "property": "C75",
   "status": "proved",
   "theorems": [
    "C75_registered",
    "C75_separate",
    "C75_evaluated",
    "C75_required",
    "C75_registered_text",
    "C75_evaluated_text",
    "C75_required_text"
   ],
   "note": ""
  },
  {
   "property": "C76",
   "status": "partial",
   "theorems": [
    "C76_containers_partial",
    "C76_twice_refuted"
   ],
   "note": "The code violates the full property. A second initAll doubles the containers. Proved for the first."
  },
  {
   "property": "C77",
   "status": "partial",
   "theorems": [
    "C77_interval",
    "C77_delta",
    "C77_append_interval_partial",
    "C77_append_delta_partial",
    "C77_restart_refuted"
   ],
   "note": "The code violates the full property. An appending diagnostic never opens its file if the run does not start at zero. Proved for runs that do; in full for those that do not append."
  },
  {
   "property": "C78",
   "status": "partial",
   "theorems": [
    "C78_same_step_partial",
    "C78_single_output_refuted"
   ],
   "note": "The code violates the full property. Single output diagnostics make processes disagree. Proved without them."
  },
  {
   "property": "C79",
   "status": "partial",
   "theorems": [
    "C79_fillers_partial",
    "C79_two_fillers_refuted"
   ],
   "note": "The code violates the full property. FieldFiller::set keeps a static adder. Proved for all programs in which the calls of set for one rank agree."
  },
  {
   "property": "C80",
   "status": "proved",
   "theorems": [
    "C80_layout",
    "C80_words",
    "C80_empty",
    "C80_array"
   ],
   "note": ""
  },
  {
   "property": "C81",
   "status": "partial",
   "theorems": [
    "C81_write_partial",
    "C81_local_cells",
    "C81_read_partial",
    "C81_round_trip_partial",
    "C81_outside",
    "C81_fortran_refuted",
    "C81_serial_partial",
    "C81_serial_position_partial",
    "C81_serial_refuted"
   ],
   "note": "The code violates the full property. Fortran order is scrambled; the serial build stores ghost cells. Proved for C order with parallel HDF5, and exactly what the serial build stores."
  },
  {
   "property": "C82",
   "status": "partial",
   "theorems": [
    "C82_sets_partial",
    "C82_names_refuted"
   ],
   "note": "The code violates the full property. Block names that are set again or extend each other by digits. Proved for all other programs."
  },
  {
   "property": "C83",
   "status": "partial",
   "theorems": [
    "C83_doubles_partial",
    "C83_doubles_between_refuted",
    "C83_exact_partial",
    "C83_integers_partial",
    "C83_sum_partial",
    "C83_empty_refuted",
    "C83_overflow_refuted"
   ],
   "note": "The code violates the full property. No values, overflowing sums. The mean of doubles may lie outside the values (ten times 0.1). Proved for exact numbers, through doubles for integers, and for doubles with the rounding errors bounded."
  },
  {
   "property": "C84",
   "status": "proved",
   "theorems": [
    "C84_calls",
    "C84_order"
   ],
   "note": ""
  },
  {
   "property": "C85",
   "status": "proved",
   "theorems": [
    "C85_unique",
    "C85_numbered",
    "C85_singleton",
    "C85_once"
   ],
   "note": ""
  },
  {
   "property": "C86",
   "status": "partial",
   "theorems": [
    "C86_balanced_partial",
    "C86_square_root",
    "C86_first_dimension_refuted"
   ],
   "note": "The code violates the full property. The smallest prime factor always goes to the first dimension. Proved, in exact arithmetic: least among all ways that do this; the square root computed in doubles is exact."
  },
  {
   "property": "C87",
   "status": "proved",
   "theorems": [
    "C87_grouped_by_type"
   ],
   "note": ""
  },
  {
   "property": "C88",
   "status": "proved",
   "theorems": [
    "C88_iterator",
    "C88_forEach",
    "C88_forEach_overflow"
   ],
   "note": ""
  },
  {
   "property": "C89",
   "status": "proved",
   "theorems": [
    "C89_sum_integers",
    "C89_average_integers",
    "C89_max_integers",
    "C89_min_integers",
    "C89_order_integers",
    "C89_sum_doubles",
    "C89_average_doubles",
    "C89_max_doubles",
    "C89_min_doubles",
    "C89_order_doubles",
    "C89_serial",
    "C89_result"
   ],
   "note": ""
  },
  {
   "property": "C90",
   "status": "partial",
   "theorems": [
    "C90_each_partial",
    "C90_append_partial",
    "C90_restart_refuted",
    "C90_step_zero_again_refuted"
   ],
   "note": "The code violates the full property. A diagnostic that appends writes nothing in a run that does not pass step 0, and loses all output after a second execution at step 0. Proved for all other runs with a non-zero interval."
  },
  {
   "property": "C91",
   "status": "partial",
   "theorems": [
    "C91_each_partial",
    "C91_append_refuted"
   ],
   "note": "The code violates the full property. A diagnostic that appends aborts at its second output. Proved for diagnostics that do not append and whose files can be created."
  },
  {
   "property": "C92",
   "status": "partial",
   "theorems": [
    "C92_careful_partial",
    "C92_reopen_refuted",
    "C92_copy_refuted"
   ],
   "note": "The code violates the full property. Reopening an output stream leaks the file, copies close it twice. Proved for programs that copy, assign and open output streams only while they are closed."
  },
  {
   "property": "C93",
   "status": "proved",
   "theorems": [
    "C93_attributes",
    "C93_defined"
   ],
   "note": ""
  },
  {
   "property": "C94",
   "status": "partial",
   "theorems": [
    "C94_calls_partial",
    "C94_history",
    "C94_destroyed_refuted"
   ],
   "note": "The code violates the full property. Destroyed diagnostics stay registered. Proved for programs that destroy none; with a destroyed one execute is always undefined."
  },
  {
   "property": "C95",
   "status": "proved",
   "theorems": [
    "C95_undivided",
    "C95_same_result",
    "C95_serial",
    "C95_in_place_counterexample"
   ],
   "note": ""
  },
  {
   "property": "C96",
   "status": "partial",
   "theorems": [
    "C96_last_registration",
    "C96_registered",
    "C96_calls",
    "C96_integers",
    "C96_integers_exact",
    "C96_numbers_partial",
    "C96_binary64",
    "C96_nan_refuted",
    "C96_unordered",
    "C96_pow",
    "C96_normal",
    "C96_hypotheses"
   ],
   "note": "The code violates the full property. With NaN the result of min and max depends on the order of the arguments (C96_unordered: it is the first). Proved for all numbers; everything else in full."
  },
  {
   "property": "C97",
   "status": "partial",
   "theorems": [
    "C97_registered",
    "C97_default_letters",
    "C97_names",
    "C97_components_partial",
    "C97_clash_refuted"
   ],
   "note": "The code violates the full property. A scalar called like a component is not reported, and the value in the deck reaches no C++ variable. Proved for all classes with different names."
  },
  {
   "property": "C98",
   "status": "partial",
   "theorems": [
    "C98_input_partial",
    "C98_output_partial",
    "C98_second_open_refuted",
    "C98_change_refuted",
    "C98_one_call_refuted"
   ],
   "note": "The code violates the full property. Opens on fewer processes hang when an input stream is opened again, when the processes of an output stream change and when not all processes call setActive. Proved for all other programs."
  },
  {
   "property": "C99",
   "status": "partial",
   "theorems": [
    "C99_defined",
    "C99_history",
    "C99_once_partial",
    "C99_again_refuted",
    "C99_decks"
   ],
   "note": "The code violates the full property. Registering a class again forgets its children and leaves references dangling. Proved in full what every program gets, and the claim for programs that register each class once."
  },
  {
   "property": "C100",
   "status": "partial",
   "theorems": [
    "C100_output_partial",
    "C100_input_partial",
    "C100_resized_refuted"
   ],
   "note": "The code violates the full property. A diagnostic keeps the bounds its grid had when it was initialised. Proved for programs that do not resize it after that, in C order with parallel HDF5."
  },
  {
   "property": "C101",
   "status": "partial",
   "theorems": [
    "C101_read_back_partial",
    "C101_unchecked_refuted"
   ],
   "note": "The code violates the full property. Nothing is escaped or checked: keys with commas and unbalanced braces spoil the file. Proved for all citation keys and balanced values."
  },
  {
   "property": "C102",
   "status": "proved",
   "theorems": [
    "C102_memory",
    "C102_released"
   ],
   "note": "For all programs without undefined behaviour (see C11 and C12 for programs with it)."
  },
  {
   "property": "C103",
   "status": "partial",
   "theorems": [
    "C103_place_partial",
    "C103_syntax",
    "C103_no_place_refuted"
   ],
   "note": "_partial: after the stack of the parser has overflowed, statements may have been skipped. Refuted for errors that are not ParserErrors: unknown functions, wrong numbers of arguments, failing casts and unreadable literals carry no place."
  },
  {
   "property": "C104",
   "status": "partial",
   "theorems": [
    "C104_value_partial",
    "C104_every_variable_partial",
    "C104_scope",
    "C104_conventional",
    "C104_unconverted_refuted"
   ],
   "note": "_partial: an expression with variables without values whose value at the end cannot be converted to the type of the variable; there the deck is accepted and the variable is 0 (refuted)."
  },
  {
   "property": "C105",
   "status": "proved",
   "theorems": [
    "C105_received",
    "C105_not_received"
   ],
   "note": "End to end: from the text to the memory of the program."
  },
  {
   "property": "C106",
   "status": "partial",
   "theorems": [
    "C106_extents_partial",
    "C106_same",
    "C106_exact",
    "C106_own_bounds_refuted"
   ],
   "note": "_partial: a grid that is resized with its own upper bound as the new lower bound or its own lower bound as the new upper bound gets other bounds (refuted); C106_exact says which."
  },
  {
   "property": "C107",
   "status": "partial",
   "theorems": [
    "C107_members_partial",
    "C107_written_refuted",
    "C107_has_elements_refuted",
    "C107_hypotheses"
   ],
   "note": "_partial: a variable leaves the group when the deck writes it, and hasElements is undefined for every group that is not empty (both refuted); the theorem gives the exact membership."
  },
  {
   "property": "C108",
   "status": "proved",
   "theorems": [
    "C108_views_follow",
    "C108_base_gone"
   ],
   "note": "Element reads and writes through views; fills and arithmetic of views are C21. Assignments of grids are restricted as in C11 and C12."
  },
  {
   "property": "C109",
   "status": "partial",
   "theorems": [
    "C109_held_partial",
    "C109_released_partial",
    "C109_copied",
    "C109_assigned",
    "C109_misuse",
    "C109_safe_refuted",
    "C109_balanced_refuted"
   ],
   "note": "Holds for every program that copies no initialised subdivision; the buffers and communicators held are counted exactly, including those lost when an initialised subdivision is initialised again or assigned to. After any such program, copying or assigning an initialised subdivision and destroying the copy leaves the original neither usable nor destructible: C109_copied, C109_assigned. Every use the interface does not permit is undefined (C109_misuse)."
  },
  {
   "property": "C110",
   "status": "partial",
   "theorems": [
    "C110_writer_partial",
    "C110_writer_change",
    "C110_writer_refuted",
    "C110_reader_partial",
    "C110_reader_again",
    "C110_reader_refuted",
    "C110_everyone",
    "C110_inactive",
    "C110_attributes_refuted",
    "C110_hypotheses"
   ],
   "note": "C98 has the openings alone, in all schedules; here the calls are taken together, with writes, reads and attributes. Holds for writers as long as files are opened by one set of processes or by none, and for readers as long as the first opening without a new setActive is one by all processes or none. Outside, the program hangs: after any such program C110_writer_change, C110_reader_again; if only some processes call setActive, after any program at all (C110_everyone); and reading aborts inactive processes (C110_inactive)."
  },
  {
   "property": "C111",
   "status": "partial",
   "theorems": [
    "C111_values",
    "C111_references_partial",
    "C111_two",
    "C111_references_refuted",
    "C111_hypotheses"
   ],
   "note": "Values and bounds: for every program (C111_values). References: for programs that use each reference before another is obtained; after any program two references show the same value (C111_two). Proved of GridTransformStorage: GridTransform itself cannot be instantiated."
  },
  {
   "property": "C112",
   "status": "partial",
   "theorems": [
    "C112_even_partial",
    "C112_extents",
    "C112_idle_exactly",
    "C112_binary64_partial",
    "C112_binary64_any",
    "C112_uneven_refuted",
    "C112_idle_refuted"
   ],
   "note": "The code violates the full property. The numbers may differ by two, and with as many cells as processes one may have none. Proved: they differ by at most two, the number of cells of each process, and that every process has cells if and only if there are at most two processes or more cells than processes (C112_idle_exactly), in exact arithmetic and in binary64 for up to 2^48 cells times processes; by at most three for all domains an int can describe."
  }
 ]
}