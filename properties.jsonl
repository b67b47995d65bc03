{"id": "C01", "title": "Growable array is a sequence", "statement": "Any history of push / push-unique / erase / clear / clone / merge / get on the growable array has the effect of the corresponding operation on a plain sequence: push appends, push-unique appends only if the element is absent, erase removes exactly the indexed element and keeps the order of the rest, merge appends the elements of the other array that are not yet present, get returns the indexed element or nothing when out of range, and no access ever leaves the allocated buffer.", "quantifier": "every finite history of operations with every element value", "why_tests_cant": "capacity doubling makes the behaviour depend on the whole history; a test fixes one history", "anchors": ["core/array.c: bpf_ir_array_push, bpf_ir_array_push_unique, bpf_ir_array_erase, bpf_ir_array_clear, bpf_ir_array_clone, bpf_ir_array_merge, bpf_ir_array_get_void"]}
{"id": "C02", "title": "Pointer set is a set", "statement": "Insert adds exactly one element, delete removes exactly one element, the membership query answers whether the element is in the set, and the reported count is the number of distinct members.", "quantifier": "every finite history of insert/delete/query on a default-initialised pointer set, for every pointer value and so every collision pattern", "why_tests_cant": "collision chains, tombstones and growth depend on pointer values and on the whole history", "anchors": ["core/ptrset.c: bpf_ir_ptrset_insert, bpf_ir_ptrset_delete, bpf_ir_ptrset_exists, bpf_ir_ptrset_insert_raw"]}
{"id": "C03", "title": "Set algebra on pointer sets", "statement": "Union, intersection, difference, add, clone and move of pointer sets return the set-theoretic result and terminate normally for every pair of operands (including empty ones).", "quantifier": "every pair of pointer sets", "why_tests_cant": "the failing sizes are sparse (0 and multiples of the probe stride)", "anchors": ["core/ptrset.c: bpf_ir_ptrset_union, bpf_ir_ptrset_intersec, bpf_ir_ptrset_minus, bpf_ir_ptrset_add, bpf_ir_ptrset_clone, bpf_ir_ptrset_move"]}
{"id": "C04", "title": "Predecessor and successor lists mirror each other", "statement": "After any history of connecting, disconnecting and splitting basic blocks, block A lists B as a successor exactly when B lists A as a predecessor, and no list contains a duplicate.", "quantifier": "every finite history of CFG edits on every graph", "why_tests_cant": "the invariant is over all reachable graphs", "anchors": ["core/ir_bb.c: bpf_ir_connect_bb, bpf_ir_disconnect_bb, bpf_ir_split_bb"]}
{"id": "C05", "title": "Splitting a block only moves its tail", "statement": "Splitting a block at an instruction leaves the instructions before the split point in the old block in order, puts the rest in the new block in order, loses or duplicates none, moves every outgoing edge of the old block to the new one, and links old to new only.", "quantifier": "every block, every instruction in it, both split sides, every CFG", "why_tests_cant": "holds for every block length and split position", "anchors": ["core/ir_bb.c: bpf_ir_split_bb"]}
{"id": "C06", "title": "Def-use lists stay exact under editing", "statement": "After any history of creating instructions, replacing all uses, changing one operand and erasing instructions, the users list of each value contains each instruction exactly as many times as that instruction has the value as an operand.", "quantifier": "every function body and every history of edits", "why_tests_cant": "the invariant quantifies over all histories; a broken entry only shows up in a later pass", "anchors": ["core/ir_insn.c: bpf_ir_replace_all_usage, bpf_ir_replace_all_usage_except, bpf_ir_val_add_user, bpf_ir_val_remove_user, bpf_ir_erase_insn", "core/ir_value.c: bpf_ir_change_value"]}
{"id": "C07", "title": "Editing lifted code keeps every use registered", "statement": "In a function just produced by the lifter, changing one operand of an instruction leaves every remaining operand registered in the users list of the value it refers to.", "quantifier": "every lifted function and every operand change", "why_tests_cant": "only shows when one instruction uses the same value twice and one of the two is edited", "anchors": ["core/bpf_ir.c: add_user", "core/ir_value.c: bpf_ir_change_value"]}
{"id": "C08", "title": "Erase never leaves a dangling reference", "statement": "Erasing an instruction either fails, leaving the function unchanged, when another instruction still uses it, or removes it so that no operand and no users list in the function mentions it.", "quantifier": "every function and every instruction", "why_tests_cant": "dangling references are only visible by inspecting the whole function", "anchors": ["core/ir_insn.c: bpf_ir_erase_insn"]}
{"id": "C09", "title": "Insertion positions mean what they say", "statement": "Inserting at the front, at the back, at the front after phis, or at the back before the jump places the new instruction exactly there, keeps the relative order of all the others, and never places a non-phi before a phi (front-after-phi) or after the terminator (back-before-jump).", "quantifier": "every block content and every position", "why_tests_cant": "all block shapes, including empty, all-phi and jump-only blocks", "anchors": ["core/ir_insn.c: insert_at, insert_at_bb"]}
{"id": "C10", "title": "Basic blocks partition the program at jump boundaries", "statement": "For every bytecode program with in-range forward or backward jumps, the lifter's blocks start exactly at instruction 0, at jump targets and after conditional jumps and exits; every jump or exit is the last instruction of its block; and consecutive instructions of a block are consecutive in the program.", "quantifier": "every bytecode program", "why_tests_cant": "unbounded program length and jump patterns", "anchors": ["core/bpf_ir.c: add_entrance_info, get_bb_parent, init_entrance_info, gen_bb, is_raw_insn_breakpoint"]}
{"id": "C11", "title": "Basic-block edges are the program's control flow", "statement": "Two blocks are linked exactly when the last instruction of the first can transfer control to the first instruction of the second under the eBPF ISA.", "quantifier": "every bytecode program", "why_tests_cant": "unbounded program length and jump patterns", "anchors": ["core/bpf_ir.c: gen_bb, add_entrance_info, get_bb_parent"]}
{"id": "C12", "title": "Far conditional jumps go to the right block", "statement": "A jump at any program position is resolved to the target position + offset + 1, as in the ISA, including programs longer than 32767 instructions.", "quantifier": "every position and offset", "why_tests_cant": "needs programs longer than 32767 instructions", "anchors": ["core/bpf_ir.c: gen_bb (s16 pos), create_cond_jmp"]}
{"id": "C13", "title": "Wide immediates survive a round trip", "statement": "A 64-bit immediate load is decoded from its two slots and re-encoded into the same two immediate fields, for every 64-bit value and every load kind.", "quantifier": "every pair of 32-bit slots", "why_tests_cant": "2^64 values", "anchors": ["core/bpf_ir.c: to_s64, gen_bb", "core/ir_cg_norm.c: synthesize, translate_loadimm_extra"]}
{"id": "C14", "title": "Lifting an arithmetic instruction preserves its meaning", "statement": "For each ALU/ALU64 instruction the lifter accepts, the IR it produces computes from the lifted operands the value the ISA assigns to the destination register.", "quantifier": "every accepted opcode, operand form and 64-bit operand values", "why_tests_cant": "2^128 operand pairs per opcode; zero-extension is only visible for large values", "anchors": ["core/bpf_ir.c: transform_bb, get_src_value, alu_write, create_alu_bin"]}
{"id": "C15", "title": "Lifting a memory instruction preserves its meaning", "statement": "For each load and store the lifter accepts, the IR access has the address, width, sign treatment and value the ISA prescribes.", "quantifier": "every accepted opcode, offset and memory content", "why_tests_cant": "sign treatment is only visible for values with the top bit set", "anchors": ["core/bpf_ir.c: transform_bb (BPF_LDX, BPF_ST, BPF_STX)"]}
{"id": "C16", "title": "Unsupported instructions are rejected", "statement": "Lifting fails with an error for any reachable instruction outside the supported set, rather than producing IR for it.", "quantifier": "all 256 opcodes and all field values", "why_tests_cant": "cross product of opcode, source, offset and immediate fields", "anchors": ["core/bpf_ir.c: transform_bb"]}
{"id": "C17", "title": "SSA construction names the right value", "statement": "Reading a register while lifting yields, along every path from the entry, the IR value that holds what the register holds in the bytecode execution of that path.", "quantifier": "every control-flow graph (loops, irreducible), every assignment of writes, every path", "why_tests_cant": "unbounded number of paths and graphs", "anchors": ["core/bpf_ir.c: write_variable, read_variable, read_variable_recursive, add_phi_operands, seal_block"]}
{"id": "C18", "title": "The lifter never writes outside its tables", "statement": "Lifting any byte sequence of instructions makes no out-of-bounds access: register tables are indexed only by valid registers, operand arrays by at most five arguments, and the instruction array only at valid positions.", "quantifier": "every program, including malformed ones", "why_tests_cant": "memory safety over all malformed inputs", "anchors": ["core/bpf_ir.c: transform_bb (internal call), add_entrance_info, read_variable"]}
{"id": "C19", "title": "Pass selection follows the configuration", "statement": "A built-in pass runs if and only if it is force-enabled, or the matching configuration entry (the first one with its name) enables it, or there is none and it is enabled by default; custom passes run in order and only when enabled (or their check succeeds); passes run in list order, each at most once.", "quantifier": "every pass list and every configuration list", "why_tests_cant": "combinatorial in both lists", "anchors": ["core/bpf_ir.c: bpf_ir_run_passes, run_single_pass, bpf_ir_run"]}
{"id": "C20", "title": "No pass runs after a failure", "statement": "Once a pass or the checker reports an error, no later pass and no code generation runs, and the error is returned to the caller.", "quantifier": "every pass list, every failing position, every pass behaviour", "why_tests_cant": "every failure point times every configuration", "anchors": ["core/bpf_ir.c: bpf_ir_run, bpf_ir_run_passes, bpf_ir_autorun"]}
{"id": "C21", "title": "A failed or dry run leaves the bytecode unchanged", "statement": "When the automatic run returns an error, or is asked only to print or to do a fake run, the caller's instruction array is the one passed in.", "quantifier": "every program and option set, every failing point", "why_tests_cant": "every failure point", "anchors": ["core/bpf_ir.c: bpf_ir_autorun"]}
{"id": "C22", "title": "Block layout emits every reachable block once", "statement": "The list of blocks used for emission starts with the entry block's chain, contains each block reachable from the entry exactly once, and no unreachable block.", "quantifier": "every CFG", "why_tests_cant": "all graphs", "anchors": ["core/bpf_ir.c: add_reach, gen_reachable_bbs, find_chain_head"]}
{"id": "C23", "title": "Fall-through successors are adjacent in the layout", "statement": "In the emission order, a block that ends without an unconditional jump or return is immediately followed by its fall-through successor.", "quantifier": "every CFG accepted by the layout step", "why_tests_cant": "all graphs", "anchors": ["core/bpf_ir.c: add_reach, find_chain_head"]}
{"id": "C24", "title": "Liveness covers every use", "statement": "If some path leads from a program point to a use of a value without passing its definition, the analysis lists the value as live at that point; and it lists nothing else.", "quantifier": "every SSA function in codegen form", "why_tests_cant": "all paths of all graphs", "anchors": ["core/ir_cg.c: liveness_analysis, live_in_at_statement, live_out_at_statement, live_out_at_block"]}
{"id": "C25", "title": "Register assignment never clashes", "statement": "After colouring, two values that interfere never share a register, pre-coloured values keep their register, every value gets one of R0..R9, or the run fails with an error.", "quantifier": "every interference graph, every pre-colouring and every elimination order", "why_tests_cant": "all graphs", "anchors": ["core/ir_cg.c: coloring"]}
{"id": "C26", "title": "Elimination order lists every variable once", "statement": "The maximum-cardinality search returns every variable of the graph exactly once.", "quantifier": "every graph", "why_tests_cant": "all graphs", "anchors": ["core/ir_cg.c: mcs"]}
{"id": "C27", "title": "Spilling terminates and picks only virtual registers", "statement": "Pre-spilling terminates, never chooses a physical register, and afterwards no candidate clique has more than ten members.", "quantifier": "every graph", "why_tests_cant": "all graphs", "anchors": ["core/ir_cg.c: pre_spill, maxcl_need_spill"]}
{"id": "C28", "title": "Coalescing keeps interfering values apart", "statement": "Coalescing copies changes registers only so that interfering values still have different registers.", "quantifier": "every coloured graph and every sequence of copies", "why_tests_cant": "all graphs", "anchors": ["core/ir_cg.c: coalesce, coalescing"]}
{"id": "C29", "title": "Stack slots are disjoint", "statement": "Each spilled value and each stack array gets its own 8-byte-aligned region below the frame pointer, large enough for it, disjoint from all other regions and, after the program's own stack accesses have been shifted, from the program's own frame.", "quantifier": "every sequence of allocation requests and every original stack access", "why_tests_cant": "all sequences of sizes", "anchors": ["core/ir_cg.c: get_new_spill, spill_array, spill, add_stack_offset"]}
{"id": "C30", "title": "Leaving SSA preserves values", "statement": "Replacing phi instructions by copies in the predecessors gives each phi's register, on each edge, the value its operand had, and changes no other live value.", "quantifier": "every phi set, every register assignment without clashes, every edge", "why_tests_cant": "swap and lost-copy patterns depend on the graph and the assignment", "anchors": ["core/ir_cg.c: remove_phi"]}
{"id": "C31", "title": "Normalisation preserves arithmetic meaning", "statement": "Rewriting a three-operand IR instruction on registers, stack slots and constants into two-operand form keeps the value computed into the destination and changes nothing else.", "quantifier": "every operation, width, operand placement (including aliasing of destination and operands) and operand values", "why_tests_cant": "aliasing and 64-bit values", "anchors": ["core/ir_cg_norm.c: normalize_alu, normalize_neg, normalize_end, normalize_getelemptr, normalize_assign, normalize_store, normalize_load, normalize_stackoff, normalize_ret"]}
{"id": "C32", "title": "Conditional jumps keep their condition", "statement": "Normalising and encoding a conditional jump (including swapping a constant left operand) jumps exactly when the IR condition holds, signed and unsigned, 32 and 64 bit.", "quantifier": "every condition, width and operand values", "why_tests_cant": "2^128 operand pairs", "anchors": ["core/ir_cg_norm.c: normalize_cond_jmp, translate_cond_jmp, jmp_code, cond_jmp_reg, cond_jmp_imm"]}
{"id": "C33", "title": "Encoded instructions mean what the normalised IR says", "statement": "Each encoded eBPF instruction, executed under the ISA, has the effect of the normalised IR instruction it comes from, including those removed as no-ops.", "quantifier": "every normalised instruction and machine state", "why_tests_cant": "all states", "anchors": ["core/ir_cg_norm.c: translate, translate_alu, translate_assign, translate_loadraw, translate_storeraw, translate_loadimm_extra"]}
{"id": "C34", "title": "Jump offsets reach their block", "statement": "In the generated program every jump lands on the first instruction of its target block, for every program size the generator accepts.", "quantifier": "every block layout and instruction mix", "why_tests_cant": "needs programs longer than 32767 instructions", "anchors": ["core/ir_cg_norm.c: calc_pos, relocate, check_total_insn"]}
{"id": "C35", "title": "The output array is filled exactly", "statement": "The generated instruction array has the reported length; every slot is written by exactly one emitted instruction half, in layout order, with no gap or overlap.", "quantifier": "every block layout and instruction mix", "why_tests_cant": "all lengths", "anchors": ["core/ir_cg_norm.c: calc_pos, synthesize"]}
{"id": "C36", "title": "Generated code simulates the allocated IR", "statement": "Running the generated bytecode under the ISA follows the block-level execution of the register-allocated IR step for step: same memory, same registers, same helper calls, same return value.", "quantifier": "every accepted function in allocated form and every execution", "why_tests_cant": "all executions", "anchors": ["core/ir_cg_norm.c: bpf_ir_cg_norm"]}
{"id": "C37", "title": "The instruction counter bounds every loop", "statement": "With the fast instruction counter, every cycle in the control flow contains a block with a counter check.", "quantifier": "every CFG", "why_tests_cant": "all graphs", "anchors": ["core/passes/insn_counter_pass.c: add_counter"]}
{"id": "C38", "title": "The counter limit option is honoured", "statement": "The instruction counter accepts exactly the limits 1..1000000 and, for each accepted limit, the inserted check throws as soon as the count exceeds it.", "quantifier": "every option string value and every count", "why_tests_cant": "boundary and negative values", "anchors": ["core/passes/insn_counter_pass.c: load_param, insn_counter"]}
{"id": "C39", "title": "Division by zero is intercepted", "statement": "After the division check pass, no execution of the IR evaluates a division whose divisor is zero (at the width of the division).", "quantifier": "every function and every execution", "why_tests_cant": "all executions, including high-bits-only-set divisors of 32-bit divisions", "anchors": ["core/passes/div_by_zero.c: check_div_by_zero"]}
{"id": "C40", "title": "Code compaction preserves values", "statement": "Replacing the shift-left-32/shift-right-32 pair by a 32-bit move keeps the value of the result for every operand.", "quantifier": "every function and every 64-bit operand", "why_tests_cant": "2^64 values and all widths", "anchors": ["core/passes/code_compaction.c: bpf_ir_optimize_code_compaction"]}
{"id": "C41", "title": "Trivial phi removal preserves values", "statement": "A phi removed as trivial is replaced by the only value it can take; nothing else changes; a phi that can take two different values is never removed.", "quantifier": "every function and phi", "why_tests_cant": "all phi graphs", "anchors": ["core/passes/phi_pass.c: try_remove_trivial_phi, remove_trivial_phi"]}
{"id": "C42", "title": "Dead-code elimination only removes instructions without effect", "statement": "The optimiser removes only instructions whose result is unused and which have no side effect, and never fails on a function it accepts.", "quantifier": "every function", "why_tests_cant": "all functions", "anchors": ["core/passes/optimization.c: remove_no_user_insn, remove_unused_alloc"]}
{"id": "C43", "title": "Throw becomes a return", "statement": "After throw translation no throw remains, every former throw block returns the documented value, and all other instructions are unchanged.", "quantifier": "every function", "why_tests_cant": "all functions", "anchors": ["core/passes/translate_throw.c: translate_throw"]}
{"id": "C44", "title": "The IR checker is sound", "statement": "If the program checker accepts a function then the CFG is symmetric, terminators agree with successor lists, phis cover exactly the predecessors, and operands and users agree.", "quantifier": "every function", "why_tests_cant": "all functions", "anchors": ["core/prog_check.c: bpf_ir_prog_check, check_insn, check_users, check_jumping, check_phi"]}
{"id": "C45", "title": "The log never overruns its buffer", "statement": "Whatever messages are logged, in whatever order, the log position stays within the log buffer and the retained text is a prefix of the concatenated messages.", "quantifier": "every sequence of messages", "why_tests_cant": "all histories", "anchors": ["core/ir_helper.c: bpf_ir_print_to_log"]}
{"id": "C46", "title": "Option strings are parsed without overrunning buffers", "statement": "Parsing any option string writes only inside its fixed-size buffers, accepts exactly the documented values and rejects the rest with an error.", "quantifier": "every option string", "why_tests_cant": "all strings, all lengths", "anchors": ["core/kern_utils.c: bpf_ir_init_opts, apply_pass_opt, apply_global_opt"]}
{"id": "C47", "title": "Stack offset shift relocates every stack address exactly once", "statement": "The preparation pass rewrites each computed use of the frame pointer so that after code generation the address it denotes is shifted by the extra stack exactly once.", "quantifier": "every set of frame-pointer users", "why_tests_cant": "depends on user-list reallocation and order", "anchors": ["core/passes/cg_prepare.c: bpf_ir_cg_add_stack_offset_pre_cg", "core/ir_cg.c: add_stack_offset"]}
{"id": "C48", "title": "A failed split leaves the function usable", "statement": "When splitting a block reports an error, the control-flow graph and the instruction lists are those of before the call.", "quantifier": "every function, instruction and split position", "why_tests_cant": "the failing positions are the ones tests do not exercise, and the damage is in edges that are only read later", "anchors": ["core/bpf_ir.c: bpf_ir_split_bb"]}
{"id": "C49", "title": "Splitting a block keeps phis and predecessors in agreement", "statement": "If every phi names predecessors of its block as incoming blocks, this still holds after splitting a block.", "quantifier": "every function with phis and every split point", "why_tests_cant": "needs every graph shape: the phis of the successors of the split block are affected", "anchors": ["core/bpf_ir.c: bpf_ir_split_bb"]}
{"id": "C50", "title": "Constructors create the documented instruction at the requested place", "statement": "Each instruction constructor succeeds when its operands exist and creates one new instruction with the documented opcode, operands in the documented order, targets and types, placed at the requested position of the requested block; other instructions, blocks and edges are unchanged apart from users lists.", "quantifier": "every function, block, constructor, operand combination and insertion position", "why_tests_cant": "the combinations of constructor, operand kinds and positions cannot be enumerated", "anchors": ["core/ir_insn.c: bpf_ir_create_*_insn, bpf_ir_create_*_insn_bb"]}
{"id": "C51", "title": "An error block throws and hangs off the split block", "statement": "Creating an error block at an instruction splits its block there, adds a new block containing exactly one throw instruction, and gives the first half exactly the edges to the second half and to the error block; all other edges and instruction lists are those of the split.", "quantifier": "every function, instruction and split position", "why_tests_cant": "needs every graph shape around the split block", "anchors": ["core/ir_bb.c: bpf_ir_bb_create_error_block"]}
{"id": "C52", "title": "Lifting preserves execution", "statement": "Whenever the bytecode, started with given registers and memory, exits, the lifted function started with the same arguments and memory returns the same value and leaves the same memory after the same helper calls; and the lifted function never gets stuck on an execution the bytecode can continue.", "quantifier": "every program the lifter accepts, every initial state, every helper behaviour, executions of any length", "why_tests_cant": "unbounded programs, states and execution lengths", "anchors": ["core/bpf_ir.c: bpf_ir_lift, gen_bb, transform_bb, read_variable"]}
{"id": "C53", "title": "Lifted helper calls pass all arguments", "statement": "A helper call in lifted code has exactly one operand for each argument of the helper, and that operand is the value of the corresponding argument register at the call.", "quantifier": "every program, every helper", "why_tests_cant": "depends on which block an argument register was last written in", "anchors": ["core/bpf_ir.c: transform_bb (BPF_CALL)", "core/bpf_ir.c: helper_func_arg_num"]}
{"id": "C54", "title": "Lifted functions are structurally well formed", "statement": "In a lifted function edges are mirrored without duplicates, every block is listed once, the entry has no predecessors, every instruction is in exactly the block it names as its parent, and the users of a value are exactly the instructions with an operand that refers to it.", "quantifier": "every program the lifter accepts", "why_tests_cant": "unbounded programs and graph shapes", "anchors": ["core/bpf_ir.c: init_ir_bbs, transform_bb, add_user, bpf_ir_lift"]}
{"id": "C55", "title": "Register assignment is sound for the function", "statement": "Whenever colouring succeeds on a function in codegen form, values live at the same point of an execution are in different registers, no instruction writes a register that holds a value needed later, values live across a call are in R6..R9, the copies placed for phis overwrite no live value, the result of an arithmetic instruction is not in the register of its second operand, every value has one of R0..R9 and fixed places are kept; and this still holds after coalescing.", "quantifier": "every function in codegen form, every order in which the sets are enumerated", "why_tests_cant": "all paths of all graphs; the outcome depends on the enumeration order of hash tables", "anchors": ["core/ir_cg.c: liveness_analysis, conflict_analysis, pre_spill, coloring, coalescing"]}
{"id": "C56", "title": "Nothing left to spill means enough registers", "statement": "When the choice of values to spill is empty, colouring succeeds; a program that only uses the ten registers is not rejected for lack of registers.", "quantifier": "every function, every enumeration order", "why_tests_cant": "depends on the shape of the interference graph with the pre-coloured registers", "anchors": ["core/ir_cg.c: pre_spill, coloring, bpf_ir_compile"]}
{"id": "C57", "title": "Translation preserves execution", "statement": "Whenever the original program exits with some result and memory, the code produced from it by lifting and code generation without passes exits with the same result and memory after the same helper calls.", "quantifier": "every program that is translated, every initial state, every helper behaviour, executions of any length", "why_tests_cant": "unbounded programs, states and execution lengths", "anchors": ["core/ir_cg.c: bpf_ir_compile, change_fun_arg, coalescing", "core/bpf_ir.c: bpf_ir_lift"]}
{"id": "C58", "title": "Fixed registers are kept through allocation", "statement": "Values with a fixed register, in particular the frame pointer, keep it through colouring and coalescing.", "quantifier": "every function in codegen form", "why_tests_cant": "needs every combination of copies and fixed registers", "anchors": ["core/ir_cg.c: coalesce, pre_color, init_cg"]}
{"id": "C59", "title": "The front end preserves execution", "statement": "Lifting, removal of trivial phis and the optimiser succeed one after the other, and a bytecode execution that exits with some result and memory is an execution of the resulting function that returns the same result with the same memory and helper calls.", "quantifier": "every program, every initial state, every helper behaviour, executions of any length", "why_tests_cant": "unbounded programs, states and execution lengths, composition of three transformations", "anchors": ["core/bpf_ir.c: bpf_ir_lift", "core/passes/phi_pass.c: remove_trivial_phi", "core/optimization.c: bpf_ir_optimize_ir"]}
{"id": "C60", "title": "Preparing for register allocation preserves execution", "statement": "The steps between the passes and the allocator (extra data for every instruction, moving call arguments and results, fetching arguments at the entry, giving constants a register) keep every execution: same result, memory and helper calls. What they produce satisfies the allocator's requirements: every operand is available, values are defined before use, copies can be merged.", "quantifier": "every function in SSA form, every initial state, every helper behaviour, executions of any length", "why_tests_cant": "unbounded functions and executions; each step rewrites operands in place while walking the lists it changes", "anchors": ["core/ir_cg.c: init_cg, change_call, change_fun_arg, spill_array, spill_const"]}
{"id": "C61", "title": "Lifted functions can be laid out and compiled", "statement": "The block layout succeeds on every lifted function and yields an order in which fall-through blocks are adjacent; the function runs as before; it meets the requirements of the preparation for register allocation and of the code generator.", "quantifier": "every liftable program", "why_tests_cant": "quantifies over all programs and all control-flow graphs", "anchors": ["core/bpf_ir.c: bpf_ir_lift, gen_bb_succ, gen_reachable_bbs", "core/ir_cg.c: bpf_ir_compile"]}
{"id": "C62", "title": "Spilling preserves execution", "statement": "When the allocator moves values to the stack (spill), each gets eight bytes of the frame of its own; its definition is followed by a store, its uses read what a load before them fetched, operands of phis are loaded at the end of the predecessor. Every execution that leaves the new bytes alone continues to exist, block by block, with the same values of all other instructions, the same result, the same helper calls and the same memory outside these bytes.", "quantifier": "for all functions prepared for allocation, all lists of values, all executions of any length, worlds and initial states", "why_tests_cant": "the load and store placement must be right for every combination of uses, phis and blocks; which values are spilled depends on the register pressure of the program", "anchors": ["core/ir_cg.c: spill_insn, spill (952-1064)", "core/ir_cg.c: get_new_spill (224-228)"]}
{"id": "C63", "title": "Code generation with spilling preserves execution", "statement": "The code generated for a function, with as many rounds of spilling as it takes, returns the same result as the function, makes the same helper calls and leaves the same memory, except in the bytes below the frame pointer the allocator uses for spilled values, whenever the function itself leaves those bytes alone.", "quantifier": "every function in the form the generator expects, every number of rounds, every enumeration order, executions of any length, every helper behaviour", "why_tests_cant": "needs all functions under register pressure, all choices of values to spill, executions of any length", "anchors": ["core/ir_cg.c: bpf_ir_compile, spill, coloring, coalescing", "core/ir_cg_norm.c"]}
{"id": "C64", "title": "Compiling with spilling preserves execution of bytecode", "statement": "Lifting, layout, relocation of the stack accesses, and code generation with any number of spilling rounds turn a program into one that exits with the same result, the same helper calls and the same memory outside the spilling area, when the frame of the original program is placed below that area.", "quantifier": "every liftable program, every initial state, every helper behaviour, executions of any length", "why_tests_cant": "unbounded programs, states and executions; composition of every phase", "anchors": ["core/bpf_ir.c: bpf_ir_lift", "core/passes/cg_prepare.c: bpf_ir_add_stack_offset_pre_cg", "core/ir_cg.c: bpf_ir_compile"]}
{"id": "C65", "title": "The default pipeline preserves execution of bytecode", "statement": "All passes that run by default (lifting, removal of trivial phis, translation of ecalls and throws, optimisation, marking of stack offsets, each followed by the layout and the checker) and the code generator with any number of spilling rounds together turn a program into one that exits with the same result, the same helper calls and the same memory outside the spilling area.", "quantifier": "every liftable program without ecalls, every initial state, every helper behaviour, every option of the optimiser, executions of any length", "why_tests_cant": "unbounded programs, states and executions; composition of every phase and every pass", "anchors": ["core/bpf_ir.c: bpf_ir_autorun, bpf_ir_run, run_single_pass, bpf_ir_pass_postprocess", "core/ir_cg.c: bpf_ir_compile, cg_init_passes", "core/epasstool/epasstool.c: pre_passes"]}
{"id": "C66", "title": "Heap accesses after an ecall stay in the heap", "statement": "Translating the ecall that sets up a heap keeps the function consistent and is safe on every lifted program; afterwards every access through a number is to the heap, within its size, and a load reads what was stored at the same index. Functions without such an ecall are left as they are.", "quantifier": "every function, every position of the ecall and of the accesses, every index", "why_tests_cant": "the pass rewrites all accesses of the function while it walks one of the lists it splits; the outcome depends on where the ecall stands", "anchors": ["core/passes/ecall.c: bpf_ir_handle_ecalls, translate_heap, is_nonptr"]}
{"id": "C67", "title": "The checker accepts exactly the consistent functions, and the passes never fail", "statement": "The checker that runs after every pass accepts a function exactly when its blocks are consistent and its operations have the parameters they need. A lifted function is accepted exactly when its byte swaps have a width of 16, 32 or 64 bits and its helpers have numbers other than 0; every pass of the default pipeline then succeeds, and so does every check between them.", "quantifier": "every function; every liftable program without ecalls, every option of the optimiser", "why_tests_cant": "acceptance has to be shown for every function the passes can produce from every program; a check that rejects good programs shows only on programs that are tried", "anchors": ["core/prog_check.c: bpf_ir_prog_check", "core/bpf_ir.c: bpf_ir_pass_postprocess, bpf_ir_run, run_single_pass", "core/ir_cg.c: cg_init_passes"]}
{"id": "C68", "title": "The lifter accepts exactly the programs that set their registers first", "statement": "A program is lifted exactly when every instruction has a translation and no path from its start reaches an instruction that reads a register which the path has not set; every other program is refused with an error.", "quantifier": "every liftable program (well formed, of bounded length, all of it reachable, no jump to its start) whose register fields name registers", "why_tests_cant": "the lifter resolves registers on demand through blocks that are not yet filled, and its answer has to agree with a statement about all paths of all programs", "anchors": ["core/bpf_ir.c: read_variable, read_variable_recursive, add_phi_operands, seal_block, transform_bb, run"]}
{"id": "C69", "title": "Inserted checks stop executions and do not change them", "statement": "A function instrumented with the division check or with either instruction counter returns exactly what the original returns, leaves the same memory and makes the same helper calls, or it ends in a throw; it throws wherever the original does. The division check throws only where the original throws or divides by zero. With a counter, an execution that stays within the limit is not stopped.", "quantifier": "every function with consistent blocks, every execution (arguments, memory, helper results) of any length, every limit", "why_tests_cant": "tests see that a check fires or does not fire on the programs tried; that all other behaviour is untouched is a statement about every pair of executions", "anchors": ["core/passes/div_by_zero.c: bpf_ir_div_by_zero", "core/passes/insn_counter_pass.c: add_counter_to_bb, insn_counter", "core/ir_bb.c: bpf_ir_split_bb"]}
{"id": "C70", "title": "The jump counter stops every loop and nothing else", "statement": "A function instrumented with the jump counter ends after a bounded number of blocks, whatever the helpers return: every cycle of its blocks contains a check. It returns exactly what the original returns, with the same memory and the same helper calls, or it throws, and an execution of at most 100 blocks is not stopped.", "quantifier": "every function with consistent blocks, every execution (arguments, memory, helper results) of any length", "why_tests_cant": "termination and unchanged behaviour are statements about all paths and all executions of all functions, and about every pair of executions", "anchors": ["core/passes/jmp_complexity.c: bpf_ir_jmp_complexity", "core/ir_bb.c: bpf_ir_split_bb, bpf_ir_bb_create_error_block"]}
{"id": "C71", "title": "The memory sanitizer finds uninitialised stack reads and leaves the program alone", "statement": "The pass reserves an array of 256 bytes, fills it, and puts behind every load and store whose address is computed from the stack pointer one access of the same kind and width 256 bytes higher, and adds nothing else. The instrumented function returns what the original returns, with the same helper calls and the same memory outside the array and the shadows. A read of a stack slot that was never written is reported.", "quantifier": "every function with consistent blocks, every execution (arguments, memory, helper results) of any length", "why_tests_cant": "tests compare results on the programs tried; that no stack slot of the program is overwritten and that no uninitialised read goes unnoticed are statements about every address and every execution", "anchors": ["core/passes/msan.c: modify_storeraw, modify_loadraw, is_sp_access, msan"]}
{"id": "C72", "title": "Program files survive a round trip through the tool", "statement": "A program written in the log format is one decimal number per instruction, the eight bytes of the instruction in struct order, and reading the file gives the same program back; the raw format holds the same bytes. A file of numbers, with blanks or signs, is read up to its end or the first empty line as the instructions it names, and any other file is rejected.", "quantifier": "every program, every file", "why_tests_cant": "tests convert a few programs; that no instruction encoding and no length is lost or misread is a statement about all 2^64 encodings and all files", "anchors": ["core/epasstool/read.c: print_bpf_prog_dump, epass_run", "core/epasstool/readlog.c: epass_readlog", "core/epasstool/printlog.c: epass_printlog", "core/epasstool/epasstool.c: is_elf_file"]}
{"id": "C73", "title": "The command line means what the usage text says", "statement": "A command line is accepted exactly when it is the command followed by known options with their values and one file. The settings are the given ones, the last of several counting, and no word of the command line is stored outside its buffer. A built-in pass of the tool runs exactly when it is on by default or named in the pass options, and every pass of the tool can be switched on.", "quantifier": "every list of words, every pass option string", "why_tests_cant": "command lines and option strings are unbounded; overruns show only for particular lengths", "anchors": ["core/epasstool/epasstool.c: parse_cli, enable_builtin, main", "core/epasstool/epasstool.h: struct user_opts"]}
{"id": "C74", "title": "A throw gives back the ring buffer references that are held", "statement": "With the releasing variant of the throw pass, a throw discards exactly the ring buffer references that are held on every path to it, once each and before it returns 0, prints its message if asked to, and nothing else of the function changes. The pass ends on every function, and fails exactly if a release does not name the call that made the reference.", "quantifier": "every function with consistent blocks, every path through it", "why_tests_cant": "which references are held is a statement about all paths, of which a function with loops has infinitely many; a missed or a superfluous release shows only on particular graphs", "anchors": ["core/passes/translate_throw.c: translate_throw_df, translate_throw_helper, equal_set, array_delta, array_intersect", "core/array.c: bpf_ir_array_merge"]}
{"id": "C75", "title": "A listing says what the program does", "statement": "Every instruction that can be executed is printed as one line that names its operation, registers, offset and immediate; two programs with the same listing behave alike in every execution; printing never reads outside a table, a string or the program.", "quantifier": "every program, every instruction encoding, every execution", "why_tests_cant": "there are 2^64 encodings and programs of any length; that no two of them with different behaviour are printed alike is a statement about all pairs", "anchors": ["core/aux/disasm.c: bpf_ir_print_bpf_insn, is_sdiv_smod, is_movsx, __func_get_name", "core/bpf_ir.c: print_pre_ir_cfg", "core/epasstool/print.c: print_bpf_prog", "core/epasstool/printlog.c: print_bpf_prog"]}
{"id": "C76", "title": "The printing helper for passes prints the message it is given", "statement": "Given a place in a block and a message, code is inserted there that passes this message and its length to bpf_trace_printk. The other instructions, the blocks and their edges stay as they are, and the function stays consistent.", "quantifier": "every function with consistent blocks, every place, every message", "why_tests_cant": "functions, places and messages are unbounded; that nothing else is changed is a statement about every other instruction and block", "anchors": ["core/aux/ir_utils.c: bpf_ir_printk_insns"]}
{"id": "C77", "title": "The numbers in a printed function are unambiguous", "statement": "Before a function is printed its blocks and results are numbered, whatever numbers they had before: exactly the blocks that can be reached from the entry have a number, and exactly the instructions in them that have a result. No number is given twice, none is left out, the entry is block 0, and within a block numbers follow the order of the instructions. The search ends on every function and clears its marks.", "quantifier": "every function with consistent blocks, with loops or not, every earlier numbering", "why_tests_cant": "functions are unbounded graphs; uniqueness is a statement about all pairs of instructions, and stale marks show only on particular histories", "anchors": ["core/ir_helper.c: tag_ir, assign_id, bpf_ir_clean_id, bpf_ir_clean_visited"]}
{"id": "C78", "title": "A program with checks added ends, does not divide by zero, and otherwise does what it did", "statement": "Every program that is turned into a function gives one that the passes which add checks can work on. With the instruction counter, in either mode, every execution of the program ends within a bound that depends on the limit and the number of blocks, and so it does with the jump counter; with the division check it never executes a division by zero. An execution that stays within the limit and does not divide by zero returns what it returned without the checks.", "quantifier": "every program that can be lifted, every limit, every execution with every helper result", "why_tests_cant": "programs and executions are unbounded; termination is a statement about infinite executions", "anchors": ["core/bpf_ir.c: bpf_ir_lift, transform_bb", "core/passes/insn_counter_pass.c: add_counter, add_counter_to_bb, insn_counter", "core/passes/div_by_zero.c: bpf_ir_div_by_zero", "core/passes/jmp_complexity.c: bpf_ir_jmp_complexity"]}
