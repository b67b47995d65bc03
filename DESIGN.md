# Formal model of ePass in Rocq

Source: `/repo` (C), read as text. Proof assistant: Rocq/Coq 8.16.1.
All Coq files are in `rocq/theories`. The model is executable Gallina.

## Layout

* `Spec*.v`  — independent specifications: 64-bit words and the eBPF ISA (`SpecWord`, `SpecIsa`, `SpecProg`), sets, sequences, control-flow graphs, the execution of SSA functions (`SpecSsa`), of functions over virtual places (`SpecVirt`) and of flat code (`SpecFlat`), liveness and colouring (`SpecRa`), strictness (`SpecStrict`), frame layout (`SpecFrame`), and so on. They use the IR data types but none of the modelled functions they specify.
* `M_*.v`    — models of the C functions. Each definition cites file and lines. No proofs.
* `L_*.v`    — lemmas. Files ending in `Wit`, `Ex` contain concrete functions and deciders for the examples and refutations.
* `P_*.v`    — property theorems, each followed by `Print Assumptions`, with `Example`s showing that the hypotheses can be met.

A theorem `Cnn_…` is the full statement, or a piece of it; `Cnn_…_partial` holds under a restriction that the statement in `properties.jsonl` does not have;
`Cnn_…_refuted` gives a concrete function, program or history for which the full statement is false of the code.

## Modelling conventions

* Pointers to instructions and blocks are natural numbers; a heap is a partial function from them.
* Machine integers are `Z`; wraps are written explicitly (`mod 2^64`, `mod 2^32`, sign extension).
* Outcomes (`M_Base.v`): `Ok`; `Err` (RAISE_ERROR: the code sets the error and returns); `Crit` (the code ends the process through CRITICAL or an assertion); `UB`
  (out-of-bounds access, use after free, null pointer, modulo by zero); `NoFuel`. They are never identified with each other.
* Loops become structural or fuelled recursion; `NoFuel` is excluded in each theorem or proved impossible for enough fuel.
* Where the order of enumeration of a pointer set matters (it depends on addresses), the order is a parameter (`om`, `os`) and theorems quantify over it.

## What is modelled

| Code | Model | Not modelled there |
|---|---|---|
| `array.c` | `M_Array` | contents of elements (integers) |
| `ptrset.c` | `M_Ptrset` | tables of 2^32-31 entries or more |
| `bpf_ir.h`, `ir_cg.h` types | `M_Ir` | debugging and scratch fields |
| `ir_bb.c`, `ir_insn.c`, `ir_value.c` 130-136 | `M_Edit`, `M_EditHist` | freeing |
| `bpf_ir.c` gen_bb and helpers | `M_GenBB` | |
| `bpf_ir.c` 1-213, 601-1584 (lifting) | `M_Lift` | |
| `bpf_ir.c` 1586-1760 (reachable blocks, end blocks) | `M_Layout` | |
| `bpf_ir.c` 1777-1991 (pass runner, autorun) | `M_Run` | passes are parameters; printing, timing |
| `passes/phi_pass.c`, `optimization.c`, `code_compaction.c`, `div_by_zero.c`, `insn_counter_pass.c`, `jmp_complexity.c`, `msan.c` (what follows 127 is in a comment), `translate_throw.c` 304-323, `cg_prepare.c` 50-97 | `M_Pass` | see the list below |
| `passes/ecall.c` | `M_Ecall` | |
| default pipeline: `epasstool.c` 10-18, `bpf_ir.c` 1762-1791, 1822-1850, 1910-1990, `ir_cg.c` 16-25 | `M_Pipe` | options that switch checks off |
| `aux/prog_check.c`, check_userdata of `aux/cg_prog_check.c` | `M_Check` | |
| `ir_cg.c` | `M_Ra` | |
| `ir_cg_norm.c` | `M_Norm` | freeing |
| `aux/kern_utils.c` 1-226, `lli.c` parse_int, `insn_counter_pass.c` 135-185 | `M_Opts` | message printing |
| `ir_helper.c` 738-786 (log) | `M_Log` | formatting (`vsprintf`) |
| `epasstool/epasstool.c` 10-37, 78-222, 235-250, `epasstool/read.c` 5-15 and 48-66, `epasstool/readlog.c`, `epasstool/printlog.c` 29-43 | `M_Tool` | ELF input (libbpf), files that cannot be opened, messages |
| `passes/translate_throw.c` 1-303 | `M_Release` | freeing; the variant is never called by the pipeline |
| `aux/disasm.c`, `bpf_ir.c` 568-577 and 1889-1905 (BPF mode), `epasstool/print.c` 5-17, `epasstool/printlog.c` 4-16 | `M_Disasm` | the length of the log buffer (see `M_Log`); formatting directives are functions on texts |
| `aux/ir_utils.c` (never called) | `M_Printk` | |
| `ir_helper.c` 36-65, 600-629 (numbering for printing) | `M_Tag` | wrap-around of the counters; the depth of the recursion |

Not modelled: `passes/constraint.c` (its loop does nothing), `cg_prepare.c` 5-49 and 100-148 (never called),
the rest of `epasstool/`, the printing parts of `ir_helper.c`, `lli.c` other than parse_int, the kernel side,
failing memory allocation, and memory release.

## Trusted base

* Coq's kernel (`coqc`, re-checked with `coqchk`). No axioms: `Print Assumptions` reports `Closed under the global context` for every theorem of every `P_*.v` file (listed at the end).
* The reading of the C text: the model is tied to the code only by the citations.
* The specifications: the eBPF instruction set in `SpecIsa.v` / `SpecProg.v` (64-bit and 32-bit arithmetic, division by zero gives 0 and remainder by zero leaves the operand, shifts masked,
  helpers as arbitrary functions of the call number, their first arguments and the memory, which clobber R1–R5 and return in R0), and the execution of IR in `SpecSsa.v` and `SpecVirt.v`.
* Memory is a byte-addressed total function; access checks are the kernel verifier's business.

Hypotheses that stand for facts outside the model, and are visible in the statements:

* `agrees`, `respects`, `few_args`, `arity_of`: helpers look at no more arguments than the table `helper_args` of the code says.
* `chk`: the checks of `prog_check.c` that the code generator runs between its phases are a parameter of `codegen` (modelled and proved separately as C44).
* `apart`: parallel copies out of SSA do not overwrite a register that is still read. The allocator does not ensure it (C30, C57 refutations); it is decidable (`L_VirtCheck.apartb`).
* `movable`: a value that is spilled has no place yet, and a variable that is spilled is not the base of a raw access: the code would then use the address of the slot instead of what the variable holds (C62).
* guarded executions (`grun R`): executions in which no access to a computed address touches `R`, the bytes of the new slots (C62).
* `gsrun`, `gcrun` (`SpecGuard`): the same for SSA functions and for bytecode (C63, C64); `hidden w R`: helpers neither read nor write `R`, the stack bytes of spilled values.
* `all_fit`: after colouring, the offset of every stack access plus the offset of its base fits in 16 bits; the code does not check it.
* `tame`, `stack_tame` (`SpecPrep`): the frame pointer is only the base of accesses and an operand of 64-bit additions of constants, which is what `stack_offset_pre` relocates (C47 shows what happens otherwise).
* `cap`: the capacity of the user array in `stack_offset_pre` (C47).

## How each property is proved

| Property | Model | How |
|---|---|---|
| C01 | buffer + count + capacity model of `array.c` | refinement to `list` over operation histories |
| C02 | open-addressing table of `ptrset.c` | refuted for arbitrary histories (tombstone reuse), proved for histories without an insert after a delete |
| C03 | union / intersection / minus / add | refuted (size 0, size multiple of 31); proved for the safe sizes |
| C04, C05 | CFG heap with `preds`/`succs` arrays and instruction lists | invariant over edit histories |
| C06, C07, C08 | instruction heap with operands and users | multiset invariant; refutation for set-based lists |
| C09, C50, C51 | list insertion, constructors, error blocks | functional specification |
| C10, C11, C12 | `gen_bb` and helpers over lists of raw instructions | refinement to ISA successor relation; refutation for `s16` wrap |
| C13 | `to_s64`, `synthesize` | bit-level round trip |
| C14, C15, C16, C18 | `transform_bb` for one instruction | IR evaluation against ISA semantics |
| C17, C52, C53, C54 | SSA construction | invariant on the current-definition tables; simulation of the ISA by the SSA function, by induction over executions |
| C19, C20, C21 | pass runner and `bpf_ir_autorun` with passes as arbitrary state transformers | induction over lists |
| C22, C23, C61 | block layout | invariant; the laid out function has the same runs and meets the requirements of the code generator |
| C24 | liveness | soundness/completeness against path definition |
| C25, C26, C27, C28, C55, C56, C58 | interference graph, elimination order, colouring, coalescing | invariants; chordality is not assumed |
| C29, C47 | spill slots, stack shift | invariant |
| C30 | SSA-out | refutation + simulation under `apart` |
| C31, C32, C33 | normalise and translate | simulation against ISA semantics |
| C34, C35, C36 | positions, relocation, synthesis | list induction, simulation |
| C57 | the whole code generator; lifter, layout and code generator together | composition of the simulations; refutations |
| C59 | lifter, phi removal and optimisation together | composition |
| C60 | preparation for register allocation | simulation per inserted instruction, induction over the edits |
| C62 | spilling of values | simulation per moved value on guarded executions (`grun`), induction over the list |
| C63 | any number of spilling rounds (`SpecRound.rounds`) and the code of the last | induction over rounds, each one the simulation of C62; then the simulation of C57 with the slots of the last round |
| C64 | lifter, layout, relocation of stack addresses, layout, code generator | composition; the program's frame is placed below the spilling area |
| C65 | `M_Pipe`: every default pass with the layout and checker after it, and the code generator | the shape needed by the code generator is an invariant of the passes (`stage`); composition |
| C66 | `M_Ecall` | consistency by the editing lemmas; five refutations, three of them by running the compiled code |
| C67 | `M_Check`, `M_Pipe` | each check is an equivalence (`check_exact`); what it asks for is an invariant of the passes (`sound`, next to `stage`) |
| C68 | `M_Lift` | forward: an invariant says that a register resolved at a block is not unset there (`iv`), so no read fails; backward: a failed read shows on `l_err`, and what is resolved without it is set on every path (`kv`, `tv`) |
| C69 | `M_Pass` (div_by_zero, counters), `M_Edit` (split_bb) | simulation both ways between the blocks of the function and the chains of blocks they become (`L_Weave`), the counter bounded by the blocks executed |
| C70 | `M_Pass` (jmp_complexity), `M_Edit` (split_bb) | the counter invariant of C37 and the simulation of C69 for a check in each block that jumps; a cycle without a check would be a cycle of blocks that fall through |
| C71 | `M_Pass` (msan), `M_Edit` (create_at) | where each inserted instruction stands (array, filling stores, one shadow per stack access); lock-step simulation with memories equal outside a set of addresses; the only added operations are ALLOCARRAY, LOADRAW and STORERAW, none of which throws; lifted programs have no throws and meet the hypotheses (`L_LiftMsan`) |
| C72, C73 | `M_Tool` | bytes of a word by division; a canonical numeral below 2^64 has at most 20 digits; induction over the lines of a file, the words of a command line, the pieces of an option string |
| C74 | `M_Release` | must-analysis: invariant that IN only grows (measure: sizes of IN), every OUT is held on all walks, strong induction on a rank for exactness; per-throw frame for the inserted code |
| C75 | `M_Disasm` | the printed text determines the code byte, and per code the fields that are used: renderings of the pieces are prefix-free (`printf_inj`); induction over the listing and over the execution; the text of each line by cases on the instruction |
| C76 | `M_Printk` | the placing lemmas of C74 (`create_ext`) and, next to a phi, of the spiller (`phi_ext`), at any place of a block; consistency of a block with new instructions that do not end it (`spliced_cfg`) |
| C77 | `M_Tag` | the state of the search is determined by the list of visited blocks (`tagged`); the list is closed under successors at the end, and grows by at least one per level of recursion, which bounds the fuel |
| C78 | `M_Lift`, `M_Pass` | the invariants of lifting (`lay_facts`, `finv`, `lift_phis`) give the hypotheses of C37, C39 and C77 (`lift_all_meet`); the simulation of C52 followed by that of C69 (`checked_exit`, `checked_only`), and of C43 (`checked_thrown`); a lifted block that does not jump is followed by the next one, so a loop has a jump (`lift_loops_jump`), which C70 needs; refutations are lifted programs, run in Coq |
| C37, C38 | instruction counter | graph argument; arithmetic |
| C39–C43 | passes | semantics of edited IR |
| C44 | checker | soundness |
| C48, C49 | block splitting | refuted by concrete functions |
| C45, C46 | log and option parsing | invariant with explicit `UB` |

## Status

The status of every property, with the names of its theorems, is in `MANIFEST.json`; `seeded/LOG.jsonl` lists the wrong programs the theorems were tested against.
"partial" means in almost all cases that the full statement is false of the code, that the refutation is proved, and that the statement is proved under an explicit restriction.

## Print Assumptions

Every `Print Assumptions` in the property files prints `Closed under the global context`; the theorems use no axiom of the standard library or of any other library.
