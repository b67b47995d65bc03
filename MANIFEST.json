{"claims": [
 {"property": "C01", "status": "proved", "theorems": ["C01_array_is_sequence"], "note": ""},
 {"property": "C02", "status": "partial", "theorems": ["C02_ptrset_is_set_partial", "C02_ptrset_is_set_refuted"], "note": "full statement is false of the code (refutation theorem included)"},
 {"property": "C03", "status": "partial", "theorems": ["C03_union_partial", "C03_intersection_partial", "C03_minus", "C03_clone", "C03_add_partial", "C03_union_refuted"], "note": "full statement is false of the code (refutation theorem included)"},
 {"property": "C04", "status": "proved", "theorems": ["C04_preds_succs_mirror"], "note": ""},
 {"property": "C05", "status": "proved", "theorems": ["C05_split_front", "C05_split_back"], "note": ""},
 {"property": "C06", "status": "proved", "theorems": ["C06_uses_exact", "C06_replace_all_complete", "C06_replace_by_itself_refuted"], "note": "replacing a value by itself is outside the API contract; the refutation shows that the precondition is needed"},
 {"property": "C07", "status": "partial", "theorems": ["C07_lifted_edit_refuted", "C07_lifted_program_refuted", "C07_lifted_edit_partial", "C07_lifted_registered_partial"], "note": "full statement is false of the code (refutation theorem included)"},
 {"property": "C08", "status": "proved", "theorems": ["C08_erase_no_dangling"], "note": ""},
 {"property": "C09", "status": "proved", "theorems": ["C09_insert_at_block", "C09_insert_at_insn", "C09_insert_at_phi"], "note": ""},
 {"property": "C10", "status": "partial", "theorems": ["C10_blocks_partial", "C10_jump_to_entry_refuted"], "note": "full statement is false of the code (refutation theorem included); proved for programs of at most 32768 slots without a jump to slot 0"},
 {"property": "C11", "status": "partial", "theorems": ["C11_edges_partial", "C11_isa_flow", "C10_jump_to_entry_refuted"], "note": "full statement is false of the code (refutation theorem included); proved for programs of at most 32768 slots without a jump to slot 0"},
 {"property": "C12", "status": "partial", "theorems": ["C12_targets_partial", "C12_far_jump_refuted", "C12_wrong_target_refuted"], "note": "full statement is false of the code (refutation theorem included)"},
 {"property": "C13", "status": "proved", "theorems": ["C13_round_trip"], "note": ""},
 {"property": "C14", "status": "partial", "theorems": ["C14_alu_partial", "C14_mov32_reg_refuted", "C14_mov32_imm_refuted"], "note": "full statement is false of the code (refutation theorem included); holds for every form except 32-bit moves of registers and negative constants"},
 {"property": "C15", "status": "partial", "theorems": ["C15_memory_partial", "C15_sign_extending_load_refuted"], "note": "full statement is false of the code (refutation theorem included); holds for every form except sign-extending loads"},
 {"property": "C16", "status": "partial", "theorems": ["C16_accepted_partial", "C16_supported_executes", "C16_meaningless_refuted", "C16_last_instruction_refuted", "C16_no_exit_refuted"], "note": "full statement is false of the code (refutation theorem included)"},
 {"property": "C17", "status": "partial", "theorems": ["C17_phis_partial", "C52_lift_exit_partial", "C52_lift_run_partial", "C17_dead_predecessor_refuted"], "note": "full statement is false of the code (refutation theorem included); holds when every instruction is reachable"},
 {"property": "C18", "status": "partial", "theorems": ["C18_no_bad_access_partial", "C18_lifting_ends_partial", "C18_register_field_refuted", "C18_call_arguments_refuted"], "note": "full statement is false of the code (refutation theorem included)"},
 {"property": "C19", "status": "partial", "theorems": ["C19_selection_partial", "C19_selection_exists", "C19_force_refuted"], "note": "full statement is false of the code (refutation theorem included)"},
 {"property": "C20", "status": "partial", "theorems": ["C20_codegen_partial", "C20_error_reported_partial", "C19_selection_partial", "C20_pre_pass_refuted"], "note": "full statement is false of the code (refutation theorem included)"},
 {"property": "C21", "status": "partial", "theorems": ["C21_unchanged_partial", "C21_fake_run_refuted"], "note": "full statement is false of the code (refutation theorem included)"},
 {"property": "C22", "status": "partial", "theorems": ["C22_layout_partial", "C22_duplicate_refuted", "C22_dead_block_refuted", "C22_entry_refuted", "C22_diverges_refuted"], "note": "full statement is false of the code (refutation theorem included)"},
 {"property": "C23", "status": "proved", "theorems": ["C23_adjacent"], "note": ""},
 {"property": "C24", "status": "proved", "theorems": ["C24_liveness_exact", "C24_interference_complete"], "note": "for functions whose reachable blocks have reachable predecessors (ready); the values with a fixed register are excluded, as in the code"},
 {"property": "C25", "status": "proved", "theorems": ["C25_coloring"], "note": ""},
 {"property": "C26", "status": "proved", "theorems": ["C26_mcs"], "note": ""},
 {"property": "C27", "status": "proved", "theorems": ["C27_pre_spill", "C27_pre_spill_graph"], "note": ""},
 {"property": "C28", "status": "partial", "theorems": ["C28_coalesce_partial", "C55_coalesced_sound_partial", "C28_coalescing_refuted"], "note": "full statement is false of the code (refutation theorem included); holds when one side is fixed or the two do not interfere"},
 {"property": "C29", "status": "partial", "theorems": ["C29_regions_partial", "C29_spilled", "C29_own_partial", "C29_shift_refuted", "C29_size_refuted", "C29_above_refuted"], "note": "proved, through every round of the allocator, for frames below 2^15 bytes and arrays whose size does not wrap; otherwise the full statement is false of the code (refutation theorem included)"},
 {"property": "C30", "status": "partial", "theorems": ["C30_round_keeps_function", "C30_exit_partial", "C30_code_partial", "C30_swap_refuted", "C30_lost_copy_refuted", "C30_critical_edge_refuted"], "note": "full statement is false of the code (refutation theorem included); proved for all functions and executions when the copies are apart"},
 {"property": "C31", "status": "partial", "theorems": ["C31_normalize_partial", "C31_sub_same_reg_refuted", "C31_add32_zero_refuted", "C31_move32_refuted", "C31_ret_const64_refuted", "C31_const64_to_stack_refuted", "C31_narrow_variable_refuted", "C31_getelemptr_stack_refuted"], "note": "full statement is false of the code (refutation theorem included)"},
 {"property": "C32", "status": "partial", "theorems": ["C32_cond_jump_partial", "C32_const_jump32_refuted"], "note": "full statement is false of the code (refutation theorem included)"},
 {"property": "C33", "status": "partial", "theorems": ["C33_translate_partial", "C33_storeraw_const64_refuted", "C33_loadraw_const_refuted", "C33_offset_overflow_refuted", "C33_neg_stack_refuted"], "note": "full statement is false of the code (refutation theorem included)"},
 {"property": "C34", "status": "partial", "theorems": ["C34_jumps_land_partial", "C34_offset_wrap_refuted"], "note": "full statement is false of the code (refutation theorem included)"},
 {"property": "C35", "status": "proved", "theorems": ["C35_output_exact"], "note": ""},
 {"property": "C36", "status": "partial", "theorems": ["C36_simulation_partial", "C36_returns_partial", "C31_sub_same_reg_refuted"], "note": "full statement is false of the code (refutation theorem included); proved for all programs within norm_ok and 32768 slots"},
 {"property": "C37", "status": "partial", "theorems": ["C37_fast_cycles_partial", "C37_accurate_cycles_partial", "C37_fast_ends_partial", "C37_accurate_ends_partial", "C37_entry_uncounted_refuted", "C37_entry_reset_refuted"], "note": "proved for every consistent function whose entry block has no predecessor, in both modes: every cycle contains a check, and every execution ends within an explicit number of blocks; with the entry in a loop the full statement is false of the code (refutation theorem included)"},
 {"property": "C38", "status": "partial", "theorems": ["C38_limit_option_partial", "C38_negative_limit_refuted"], "note": "full statement is false of the code (refutation theorem included)"},
 {"property": "C39", "status": "partial", "theorems": ["C39_checked_partial", "C39_keeps", "C39_first_refuted", "C39_width_refuted", "C39_constant_refuted", "C39_remainder_refuted"], "note": "proved for divisions by a computed value that are not first in their block, at 64 bits; otherwise the full statement is false of the code (refutation theorem included)"},
 {"property": "C40", "status": "partial", "theorems": ["C40_compaction_partial", "C40_succeeds_partial", "C40_mixed_width_refuted", "C40_other_user_refuted", "C31_move32_refuted"], "note": "full statement is false of the code (refutation theorem included); the IR rewriting is proved for adjacent pairs of equal width; the code emitted for the 32-bit move keeps the upper half (C31_move32_refuted)"},
 {"property": "C41", "status": "proved", "theorems": ["C41_one_phi", "C41_phi_pass", "C41_lifted", "C41_empty_phi_refuted"], "note": "per phi for every tidy function; for the whole pass, with behaviour preservation, for strict functions, which lifted functions are; the pass gives up on a phi without a value of its own (C41_empty_phi_refuted)"},
 {"property": "C42", "status": "partial", "theorems": ["C42_dead_code", "C42_unused_variables_partial", "C42_unused_variables_succeeds_partial", "C42_optimize_partial", "C42_two_stores_refuted"], "note": "full statement is false of the code (refutation theorem included); dead-code elimination itself is proved in full, with termination and behaviour preservation"},
 {"property": "C43", "status": "proved", "theorems": ["C43_translates", "C43_throw", "C43_returns"], "note": "translate_throw.c 304-323; translate_throw_df is not in the pass list"},
 {"property": "C44", "status": "partial", "theorems": ["C44_checker_partial", "C44_special", "C44_control", "C44_phi_coverage_refuted", "C44_use_before_definition_refuted", "C44_operand_count_refuted"], "note": "full statement is false of the code (refutation theorem included); everything in the statement except phi coverage is proved; C67_checker_exact is an exact characterisation"},
 {"property": "C45", "status": "partial", "theorems": ["C45_log_partial", "C45_print_partial", "C45_long_message_refuted", "C45_long_line_refuted", "C45_prefix_refuted"], "note": "full statement is false of the code (refutation theorem included)"},
 {"property": "C46", "status": "partial", "theorems": ["C46_options_partial", "C46_pieces_exist", "C46_long_piece_overruns", "C46_option_overflow_refuted", "C46_name_overflow_refuted", "C46_counter_overflow_refuted", "C46_number_wrap_refuted", "C46_missing_number_refuted", "C46_junk_refuted", "C46_two_parameters_refuted"], "note": "full statement is false of the code (refutation theorem included)"},
 {"property": "C47", "status": "partial", "theorems": ["C47_relocates_partial", "C47_filled", "C47_copied_refuted", "C47_sub_refuted", "C47_stored_refuted", "C47_phi_refuted", "C47_three_users_refuted", "C47_two_users_refuted"], "note": "proved for every function whose frame pointer is used in addresses, in additions of constants, and once otherwise; otherwise the full statement is false of the code (refutation theorem included)"},
 {"property": "C48", "status": "partial", "theorems": ["C48_failed_split_refuted"], "note": "full statement is false of the code (refutation theorem included)"},
 {"property": "C49", "status": "partial", "theorems": ["C49_split_phi_refuted"], "note": "full statement is false of the code (refutation theorem included)"},
 {"property": "C50", "status": "proved", "theorems": ["C50_constructor"], "note": "the *_bb constructors; the variants relative to an instruction are covered by C09 and C06"},
 {"property": "C51", "status": "proved", "theorems": ["C51_error_block_front", "C51_error_block_back"], "note": ""},
 {"property": "C52", "status": "partial", "theorems": ["C52_lift_exit_partial", "C52_lift_run_partial", "C52_crun_is_execution"], "note": "full statement is false of the code (refutation theorem included) (C14, C15, C17, C53); holds without the instruction forms refuted there, without dead code and jumps to instruction 0, up to 32768 instructions"},
 {"property": "C53", "status": "partial", "theorems": ["C53_call_arguments_partial", "C53_printk_arguments_partial", "C53_printk_refuted"], "note": "full statement is false of the code (refutation theorem included); the values are covered by C52"},
 {"property": "C54", "status": "partial", "theorems": ["C54_lifted_structure_partial"], "note": "for programs without a jump to instruction 0 and up to 32768 instructions, where block discovery is refuted (C10, C12)"},
 {"property": "C55", "status": "partial", "theorems": ["C55_assignment_sound", "C55_coalesced_sound_partial", "C28_coalescing_refuted"], "note": "proved up to colouring; after coalescing the full statement is false of the code, and holds when every pair may be merged"},
 {"property": "C56", "status": "partial", "theorems": ["C56_colouring_succeeds_partial", "C56_allocation_succeeds_refuted", "C56_program_rejected_refuted", "C56_ten_registers_refuted"], "note": "full statement is false of the code (refutation theorem included)"},
 {"property": "C57", "status": "partial", "theorems": ["C57_end_to_end_partial", "C57_codegen_partial", "C57_translation_refuted", "C57_variables_refuted"], "note": "full statement is false of the code (refutation theorem included); proved end to end, for all executions, for liftable programs on which the first allocation round spills nothing and the copies are kept apart from registers in use"},
 {"property": "C58", "status": "partial", "theorems": ["C58_fixed_kept_partial", "C58_fixed_kept_refuted", "C58_frame_refuted"], "note": "full statement is false of the code (refutation theorem included); holds up to colouring and for permitted merges"},
 {"property": "C59", "status": "partial", "theorems": ["C59_front_end_partial", "C14_mov32_reg_refuted"], "note": "the full statement is false of the code because lifting itself changes programs (C14, C15, C53); for programs of the covered form the whole front end is proved"},
 {"property": "C60", "status": "partial", "theorems": ["C60_runs_partial", "C60_ready", "C60_strict", "C60_copies", "C60_entry_refuted"], "note": "proved for functions without variables and arrays whose entry is not the target of a jump (all lifted functions); with the entry in a loop the full statement is false of the code (refutation theorem included)"},
 {"property": "C61", "status": "partial", "theorems": ["C61_layout", "C61_runs", "C61_prepable", "C61_compilable_partial"], "note": "layout, equality of runs and the requirements of the preparation are proved for all liftable programs; those of the code generator when the frame pointer is neither a second operand nor passed to a function, no 32-bit addition of the constant 0 and no load from a constant address occurs (each of these is a known defect, see C58, C31, C33)"},
 {"property": "C62", "status": "partial", "theorems": ["C62_spilling_partial", "C62_guarded_runs", "C62_again", "C62_prepared", "C62_lifted"], "note": "proved for all executions, for variables that are not used as the base of an access (raw accesses to a spilled variable address the slot instead of what it holds) and executions that leave the new slots alone"},
 {"property": "C63", "status": "partial", "theorems": ["C63_codegen_partial", "C63_rounds", "C63_lift", "C63_relocates_partial", "C57_variables_refuted"], "note": "proved for any number of rounds when the copies are apart (C30 shows that the allocator does not ensure it) and the stack offsets of accesses fit in 16 bits; code is always generated in such rounds (C63_rounds)"},
 {"property": "C64", "status": "partial", "theorems": ["C64_end_to_end_partial", "C64_compilable_partial", "C57_translation_refuted"], "note": "proved end to end, for all executions, for liftable programs that use the frame pointer in addresses and in additions of constants, when the copies are apart and the offsets fit; otherwise the full statement is false of the code (refutation theorem included)"},
 {"property": "C65", "status": "partial", "theorems": ["C65_pipeline_partial", "C65_front_partial"], "note": "proved end to end, for all executions, for liftable programs without ecalls that use the frame pointer in addresses and in additions of constants, when the copies are apart and the offsets fit (C30, C47, C57 and C66 show what happens otherwise)"},
 {"property": "C66", "status": "partial", "theorems": ["C66_nothing_to_do", "C66_consistent", "C66_walk_refuted", "C66_bounds_refuted", "C66_reads_back_refuted", "C66_other_path_refuted", "C66_stored_at_itself_refuted"], "note": "consistency and functions without ecall are proved; the full statement is false of the code (refutation theorem included)"},
 {"property": "C67", "status": "partial", "theorems": ["C67_checker_exact", "C67_lifted_exact", "C67_passes_total_partial", "C67_pipeline_accepts_partial", "C67_all_accepted_refuted"], "note": "the two characterisations hold without restriction; the passes succeed on liftable programs without ecalls, and the last one when the frame pointer is used in addresses and in additions of constants"},
 {"property": "C68", "status": "proved", "theorems": ["C68_lifted_exactly", "C68_refused_exactly", "C68_lifted_sets"], "note": "an equivalence in terms of paths through the bytecode; sets of registers the instructions read and set are those of SpecLift; a conditional jump to the next instruction counts as reading nothing, and r1 to r5 as always set"},
 {"property": "C69", "status": "partial", "theorems": ["C69_division_partial", "C69_division_throws_partial", "C69_fast_partial", "C69_accurate_partial", "C69_fast_within_partial", "C69_accurate_within_partial", "C69_division_phi_refuted", "C69_fast_phi_refuted", "C69_accurate_phi_refuted"], "note": "full statement is false of the code (refutation theorem included): a block split by a check leaves the phis behind it naming its first half; proved when there are no phis behind the blocks that are split (and none in the entry block, for the counter)"},
 {"property": "C70", "status": "partial", "theorems": ["C70_cycles_partial", "C70_ends_partial", "C70_transparent_partial", "C70_within_partial", "C70_entry_reset_refuted", "C70_fall_refuted", "C70_phi_refuted"], "note": "full statement is false of the code (refutation theorem included): a loop through the entry block sets the counter to zero, and phis behind a jump still name the first half of the split block; proved when the entry block has no predecessors, no loop consists of blocks without a jump, and no phis follow jumps"},
 {"property": "C71", "status": "partial", "theorems": ["C71_shape", "C71_same_partial", "C71_silent", "C71_reports_refuted", "C71_clobbers_refuted", "C71_slots_refuted", "C71_lifted_silent", "C71_lifted_same_partial"], "note": "full statement is false of the code (refutation theorem included): the shadows are written and read but never compared with anything, so no access is ever reported (C71_silent, for every function); the shadow of a slot below r10 - 256 is another slot of the program, and in the final frame shadows land on spilled values when there are any; same results proved when the shadows are out of the way of the program's accesses and of the helpers. The instruction that reserves the array is taken out before executing (take_out), its address is part of the initial state"},
 {"property": "C72", "status": "partial", "theorems": ["C72_write", "C72_read", "C72_round_trip", "C72_raw", "C72_read_total", "C72_long_never_ends", "C72_too_big", "C72_raw_read_refuted", "C72_garbage_refuted", "C72_long_line_refuted"], "note": "full statement is false of the code (refutation theorem included): text that is not a number is read as instruction 0 instead of being rejected, lines of more than 255 characters are split, raw files are not read back, and writing 2^32 instructions or more never ends. Writing, reading and the round trip are proved for all programs of less than 2^32 instructions. ELF input is libbpf's and not modelled"},
 {"property": "C73", "status": "partial", "theorems": ["C73_command_line_partial", "C73_accepts_only", "C73_long_value_overruns", "C73_overrun_refuted", "C73_passes", "C73_div_by_zero_refuted"], "note": "full statement is false of the code (refutation theorem included): words of 64 characters or more overrun the buffers of struct user_opts; div_by_zero is in the table of passes but has no configuration entry and cannot be switched on"},
 {"property": "C74", "status": "partial", "theorems": ["C74_releases_partial", "C74_accepts", "C74_loop_leaks_refuted", "C74_entry_refuted", "C74_order_refuted", "C74_layout_order_refuted", "C74_default_leaks_refuted"], "note": "full statement is false of the code (refutation theorem included): a reference made before a loop is not given back by a throw in or behind it, and if the entry block is in a loop a reference that was never made is discarded. Soundness is proved when the entry has no predecessors, exactness for loop-free functions whose blocks are listed by a search from the entry; acceptance, termination and the shape of the result in general. The pipeline runs translate_throw, which gives nothing back, and never this variant"},
 {"property": "C75", "status": "partial", "theorems": ["C75_listing_partial", "C75_prints", "C75_text", "C75_source_refuted", "C75_undefined_refuted", "C75_pre_refuted"], "note": "full statement is false of the code (refutation theorem included): the source of a 64-bit immediate load (number, map, ...) is not printed, so listings are compared for programs that agree on it; some encodings that cannot be executed read behind a table or pass NULL for a string; the dump of the blocks before lifting reads behind a copied 64-bit immediate load. Executions cover the instructions of SpecIsa.v (no atomic operations, packet access, bpf-to-bpf calls); programs of less than 2^64 instructions"},
 {"property": "C76", "status": "partial", "theorems": ["C76_prints_partial", "C76_lifted_partial", "C76_message_refuted"], "note": "full statement is false of the code (refutation theorem included): the message is ignored, the code always prints \"exit\". Proved for every place in a block (next to a phi the code goes behind the phis). The function is never called by the passes"},
 {"property": "C77", "status": "proved", "theorems": ["C77_numbers", "C77_lifted"], "note": "for functions whose list of all blocks is exact and whose instructions are in one place each; counters below 2^64"},
 {"property": "C78", "status": "partial", "theorems": ["C78_meets", "C78_fast_ends_partial", "C78_accurate_ends_partial", "C78_division_partial", "C78_exit_partial", "C78_only_partial", "C78_thrown_partial", "C78_thrown_ends", "C78_loops_jump", "C78_jump_cycles", "C78_jump_ends_partial", "C78_jump_exit_partial", "C78_fast_refuted", "C78_accurate_refuted", "C78_division_refuted", "C78_jump_refuted"], "note": "full statement is false of the code (refutation theorem included): a program with a loop variable gets stuck at the phi when a counter is added, and a division at the start of its block is not checked. The bound on executions counts a stuck one as ended, and is for programs of which every instruction can be reached and that do not jump to their first one; 64-bit divisors that are computed; the same results if no phi is behind an inserted block"}
]}
