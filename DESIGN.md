# Formal model of semantic-recovery: design

Source under study: `/repo` (Python, read as text, never executed). Model and proofs: `rocq/theories`
(Coq 8.16.1, standard library only). Claims: `properties.jsonl`; status of each: `MANIFEST.json`;
mutation log: `seeded/LOG.jsonl`.

## 1. Modelling conventions

* **Shallow functional model.** Every Python function becomes one total Gallina function with the same
  branches in the same order. Each definition carries a comment with file and lines. Loops become
  structural recursion or folds; loops that are not structurally terminating take an explicit fuel and
  return the distinct error `OutOfFuel` when exhausted.
* **Exceptions are values.** `result A := Ok a | Err e` with `e` the Python exception class
  (`RuntimeError`, `IndexError`, `KeyError`, `TypeError`, `ValueError`, `StructError`, ...).
* **Mutation** through an object becomes a returned new value. Where aliasing is observable (identity
  tests, a list extended with itself) the model spells it out and the comment says so.
* **Integers** are `Z` (Python ints are unbounded). Wrap-around is written where the code writes it.
* **Dictionaries** are insertion-ordered association lists (Python 3.7+ order).
* **Floats** are exact numbers (`Z` or `Q`; `R` only for base-2 logarithms). Rounding is not modelled; comments name every place.
* **External code** (capstone / darm decoders, `random`, file system, `print`) is an explicit
  parameter: a function, a stream of draws, or a list of bytes. Theorems quantify over it.

Files: `XModel.v` (definitions only), `XSpec.v` (specification vocabulary that does not mention the
model's helpers), `XProofs.v` (lemmas), `XProps.v` (property theorems only: statement,
`exact lemma.`, `Print Assumptions`, plus a non-vacuity `Example`).

## 2. Trusted base

* Coq 8.16.1 kernel (and `vm_compute`, part of the kernel).
* What `Print Assumptions` lists under each property theorem (section 5; mostly
  "Closed under the global context").
* The reading of the Python code in the model definitions. Nothing checks the model against a running
  Python.
* Semantics assumed for Python builtins and libraries: listed at each definition and in section 4.

## 3. Plan per property

| id | model | proof idea |
|----|-------|-----------|
| C01-C03 | `Bits` on `Z`, masks as in the code | `Z.bits_inj`, characterisation by `Z.testbit` |
| C04 | `InstructionModifier` setters over the encoding | corollaries of C02 |
| C05 | four bytes through `struct` pack/unpack; hex text by characters | arithmetic on bytes; induction on text |
| C06 | `jumping_address` with `Z.land`/`Z.shiftl` | sign extension as `mod` arithmetic |
| C07, C08 | `BitQueue` record, lazily grown word list | abstraction to a bit stream; invariant over op lists; counterexample for word sizes not dividing 32 |
| C09, C10 | `sucesive_packing` as the recursive matrix | closed form by base-4 digits; windows by induction on m |
| C11, C12 | `build_2d_interleave_sp` with `floor(log4)` exact; fractional counts as quarters | sum of consecutive intervals is a permutation; counterexample n=5, 6 |
| C13-C16 | `interleave`/`deinterleave` on top of `BitQueue` | stream of chunks; refinement by round-robin split/merge; counterexamples |
| C17 | `predict_corruption` | loop characterisation; counterexample with w=2 |
| C18-C20 | `PacketCorruptor` | candidates = subset flips of the tuples |
| C21 | blaum matrix | `fmod` bounds |
| C22-C25 | `corruption.py` enumerations, random draws as a stream | subset enumeration; NoDup; counterexample for n=3 |
| C26-C28 | random draws as a stream, fuel | invariants over draws |
| C29 | dictionary to JSON structure (not text) and back | map laws |
| C30-C33 | `CAPSInstruction`, `ARMInstruction` over an abstract decoded instruction | list lemmas; counterexamples |
| C34-C37 | collectors as folds | counting lemmas; distance invariant |
| C38-C44 | recuperator score parts as functions over candidate lists | bounds; counterexample programs |
| C45-C47 | little-endian codec on byte lists | parser/printer induction |
| C48-C55 | builders, constraint, quality | counting arguments; counterexamples |
| C56 | stack enumeration of subset products | inclusion-exclusion identity on `Q` |
| C57, C58 | `encode` with `heapq` as "extract a minimum by (freq, list order)" | tree view; Huffman exchange argument |
| C59-C61 | compressor | list lemmas; counterexamples |
| C62-C64 | CFG builder over an instruction list | invariant over the fold; node elimination |
| C65-C68 | dominators / SSA | counterexample graphs; frontier set characterisation; fresh counters |
| C69-C72 | readers, conversions, progress bar | parser lemmas; sorting; history invariant |
| C73-C77 | solution quality, part frequencies, bit compressors | sums of logarithms; counting; counterexamples |
| C78-C84 | CFG helpers, dominator tree, frontiers, SSA names, dependency graph | Lengauer-Tarjan invariants; inductive iterated frontier; fold invariants |
| C85-C89 | the counting and control-flow rules of `Rule` subclasses | fold over resolved addresses; bounds on `Q`; counterexample with an ignored first candidate |
| C90, C91 | `RegisterReadDistance` | loop invariant `[0,1]`; counterexamples (storage 25, distance 0) |
| C92, C93 | `Recuperator.recover` (all passes) | relation between states preserved by each rule; counterexample with two passes |
| C94 | `MockQoSFunction.run` | answer i+1 is (i+1) mod 3 = 0; count n/3 |
| C95 | `address_sorting.py` mappings and loops | injective, onto, loops without repetition |
| C96 | `print_report` counters | errors = contested positions = losing + ties + recovered |
| C97 | `print_report` verdicts | counterexamples (equal texts, equal encodings); exact counts when encodings and texts are distinct |
| C98 | `print_report` depths | index in the stable sort = better + equal before |
| C99 | `print_report` outcomes | counterexample (ZeroDivisionError); exact condition of each outcome |
| C100 | `print_report` sort | permutation, sorted, stable; idempotent |
| C101 | `print_report` bad rules | exact count per rule |
| C102 | `run_recovery` file sequence | induction over passes; counterexample: fully recovered program raises |
| C103 | `DARMInstruction.registers_*` over an arbitrary darm answer | membership; counterexample and exact condition for repetitions |
| C104 | DARM memory tests on the printed text | counterexamples (str, push/pop of one register); exact characterisation |
| C105 | `encodings_to_darm` | counterexample (TypeError for every non-empty list) |
| C106 | `Instruction.__init__` on text, `int(text, base)` | induction over the digits |
| C107 | same | counterexamples (sign, nine digits); partial for up to eight digits |
| C108 | interleaver, losses and PacketCorruptor put together (StoreSpec states what was sent and lost) | counterexample (lost top bit that was set: the received word has it cleared, the candidates set it); partial: exact condition per word |
| C109 | same | counterexample; partial: exact condition per word, from the candidate sets of C18/C19 |
| C110 | `StoreModel.v`: store_packets.py after reading, with its fractional packet count | counterexample (one instruction); partial: exact outcome per length |
| C111 | same, with the SwapCompressor model of `CompressModel.v` | counterexample (bit 1 kept); partial: the exact set of cleared bits |
| C112 | `default_loss` (recover_program.py main) | counterexample (short program); partial: exact outcome per length |
| C113 | `RulesModel.v` | proved: the rules look at instructions and ignore marks only, which one pass does not change |
| C114 | `CfgModel.v` | proved: invariant of the construction about ends and starts of blocks, kept by every split and extension |
| C115 | `CfgModel.v` | refuted (call to an instruction of the program); partial for calls out of the program |
| C116 | `CfgModel.v` | proved: invariant on the last conditional node; with C64 one edge after the removal |
| C117 | `CfgModel.v` | refuted (edge past an unconditional branch); partial: every edge classified, with the instruction each conditional and unknown node belongs to; edges back and edges of conditional nodes exactly as claimed |
| C118 | `CfgModel.v` | refuted (after a call into the program); partial: when every unconditional branch follows an unconditional instruction that is no branch and is no call into the program |
| C119 | `CfgCountModel.v` | refuted (a branch to an instruction behind the part); partial: equal to the graph of the part when no branch crosses its end; counts out of range exactly |
| C120 | `LinkModel.v` | refuted (`bx lr`, `blx` to an address); partial: B and BL, by bit fields |
| C121 | `LinkModel.v` on `CfgModel.v` | refuted (`bx lr`); partial: branches without bit 24, from the edge classification of C117 |
| C122 | `LinkModel.v` on `CfgModel.v` | refuted (`add pc, pc, #4`); partial: branches with only a target operand, from C63 |
| C123 | `LinkModel.v`, `DarmModel.v` | refuted (`pop {pc}`); partial: the target that is used, from C06 and C63 |
| C124 | `LinkModel.v` | proved from C30 and C62 |
| C125 | `InstModel.v` | refuted (`str pc`, `ldm` with the program counter); partial: the exact rule |
| C126 | `SsaModel.v` | proved: dominators of such a graph by position, the renaming visits the blocks in order, numbers count definitions (C68, C83) |
| C127 | `FlowModel.v` | proved: invariant of the construction on what can be reached over conditional nodes |
| C128 | `FlowModel.v` | proved from C126 and C127 |
| C129 | `FlowModel.v` | refuted (END is only connected to the last block); shown to be so for all programs without branches |
| C130 | `FlowModel.v` | refuted (unreachable branch back); partial: under the condition of C118 |
| C131 | `SsaModel.v` | proved: the counters keep their keys through the renaming (induction over the dominator tree) |
| C132 | `FlowWordModel.v` | refuted (registers outside the sixteen); partial: composition of C30, C31, C124 and C128 |
| C133 | `BlaumModel.v` | cells and rows proved; refuted for columns; partial: cells of a column on the same side |
| C134 | `LinkModel.v` | proved: pointwise over the list |
| C135 | `FlowModel.v`, `FlowWordModel.v` | proved: phi functions are followed back along ways (C126), ways are choices of the conditional runs (C127) |
| C136 | `InitialModel.v` (composes `PacketModel.v`, `ReportModel.v`, `IoModel.v`) | proved: C17 to C20 per address, fresh candidates keep their order in the report, C45 for the file |
| C137 | `RunModel.v` (run_recovery with the writer) | proved: every step keeps addresses and adds no candidates; writing succeeds only with the original at every address (C47); C100 for the order, C45 for the file |
| C138 | `RecModel.v` (as C38-C42), spec `SiftSpec.v` | proved: from the exact scores 0 and 1 of a pass (C38-C40) the removal is a sieve; induction over the passes; being sure is preserved when candidates go |
| C139 | `RealModel.v` (run_recovery with the recuperator of the code) | proved: a pass with a report in between is a round of the sieve on sets; induction over the loop; C137 gives that the true program was never lost |
| C140 | `WholeModel.v` (RunModel with the constraint phase of the code) | proved: C48 with the candidates numbered by their place (never fails, originals kept), exact outcome of a report (C99), exact condition of the writer (C45, C47) |
| C141 | `DepthModel.v` (evaluate with all it prints) | proved: invariant of the loop over the lines (address, number, depth) seen so far; erasing the bins gives `QualityModel.evaluate` |
| C142 | `RecModel.v` (a pass), `IoModel.v` (the table of functions) | proved: the walk down a function as a statement on prefixes of the addresses; errors of a pass located at a candidate with its current function |
| C143 | `RealModel.v`, `WholeModel.v` (run with the recuperator and the constraint phase) | proved: C142 for every pass, C138 for what it keeps, C140 for the end |
| C144 | `InstModel.v` (storages, caches), `DarmModel.v` | proved: every reachable cache is coherent, so an answer equals the first one; then C103 |
| C145 | `RecModel.v` (`op_prob`, `walk_down`, `compute_push_pop`) | false: a pop and a branch in either order count, and the registers of a push are compared by what it writes, which is nothing (C145_stack_refuted); C145_stack_partial: the exact value |
| C146 | `RecModel.v` (`survive`, `register_distance`) | false: the product stops when nothing writes the storage at the furthest address, and only the first storage read can give the value for a certain miss (C146_reach_refuted); C146_reach_partial: the exact value |
| C147 | `RecModel.v` (`cfg_result`, `compute_cfg`) | false: no instruction read with capstone counts as setting the flags (C147_capstone), and ignored candidates are counted in one of the shares (C147_neighbours_refuted); C147_neighbours_partial: the exact value |
| C148 | `RecModel.v` (`compute_conditional`, `compute_opcode`, `compute_registers`), `MetaModel.v` | C148_shares: the exact values, for any originals, whether the program contains them or not |
| C149 | `MetricsModel.v` (`collect_and_print`) | C149_lines, C149_bars |
| C150 | `RecModel.v` | C150_order, C150_removal, C150_reports: `alike` compares programs as collections; every count of a pass is a count over a collection |
| C151 | `RecModel.v` | C151_again, C151_no_memory, C151_restart: the entries a pass makes depend on the instruction and its place only |
| C152 | `DotModel.v` | C152_blocks, C152_values: the name of a node is determined by what it begins with, so from-to texts are unique |
| C153 | `ScriptModel.v` | C153_sizes_partial, C153_sizes_refuted: composition of the frequency counts, the optimality of the codes and C77; the register size is never improved |
| C154 | `ScriptModel.v` | C154_reports_partial, C154_ends, C154_malformed, C154_reports_refuted: induction over lines and files; a file longer than the first one raises |
| C155 | `CfgModel.v` | C155_unknown: counting the nodes added by every step of the construction |
| C156 | `SPModel.v`, `InterleaveModel.v` | cell formula of the order, columns of one word in one row, induction over the matrix size; C156_apart, C156_burst, C156_received |
| C157 | `PacketModel.v`, `SPModel.v` | C156_apart leaves one chunk and one spilled bit per word; widths of the ranges add up to at most w+1 |
| C158 | `RulesModel.v` | C85_exactly for the outcome of a rule; what is known survives every change of scores and marks; counterexample with two passes |
| C159 | `JsonModel.v` | the closing brace is the last character saved and the only one that completes the value; behind it every token is refused |
| C160 | `IoModel.v` | the candidates written for an address end with the only one equal to the original |
| C161 | `ReaderModel.v` | where the cut falls in the line; counterexample between two bytes |
| C162 | `RulesModel.v` | from C113: every part of the five formulas is invariant under permutation; counterexample with an ignored first candidate |
| C163 | `ReaderModel.v` | induction over the lines; where the cut falls in the line; counterexample within an encoding |
| C164 | `IoModel.v` | invariant of the reader's two dictionaries over all byte sequences; then C45 |
| C165 | `PacketModel.v` | monotonicity of the announced chunks, with C17 and C19; counterexample with an unequal last round |
| C166 | `RecModel.v` | step by step comparison of the two passes: every count skips the ignored, apart from two lengths |
| C167 | `RulesModel.v` | from the exact scores of one pass (C113), which speak of the candidates in play only |
| C168 | `HuffmanModel.v` | through the optimum: a best code of one text, renamed, restricted or with two words swapped, is a code of the other |
| C169 | `QualityModel.v` | count as a sum over all sizes of both programs (C54), size as logarithm of the product (C55) |
| C170 | `CfgModel.v` | which instructions can become the first of a block, as invariant along the build; with C62, C63, C114 |
| C171 | `NearModel.v` | folds as sums over the matching candidates; the range as a list of distances |
| C172 | `QualityModel.v`, `RecModel.v` | both measures as functions of the candidates per address; a run only drops candidates (C42) |
| C173 | `DotMoreModel.v` | pydot as the list of what it was given, respelled by an injective function; the edges written as a choice of one direction per edge |
| C174 | `DotMoreModel.v` | the two tables of links after each link as filters of the links read so far |
| C175 | `HuffmanModel.v` | Gibbs' inequality on the lengths of the code; the least lengths above `log2 (n / w)` satisfy Kraft's inequality, and the computed size is not above theirs |
| C176 | `ProbModel.v` | C56 gives the product of the complements; inequalities on it by induction on the list |
| C177 | `DrawModel.v` | invariant over the calls: the text so far is a list of lines sorted by step; rounding is monotone |
| C178 | `IoModel.v` | the output split write by write, sum of the ranks; `rank` is specified by splitting the candidates, not by the search |

Properties found to be false of the code keep their full statement in `properties.jsonl`; the
development proves `..._refuted` with a concrete witness and the strongest true part as `..._partial`
(or the exact behaviour).

## 4. What is modelled and what is not

Paths are below `/repo/semantic_codec` unless they start with `/`.

| source | model | covered | left out or simplified |
|--------|-------|---------|------------------------|
| `architecture/bits.py` | `BitsModel.v`, `QueueModel.v` | `Bits`, `BitQueue` | - |
| `architecture/instruction.py` | `BitsModel.v`, `InstModel.v`, `CfgModel.v`, `DarmModel.v`, `LinkModel.v` | jumping address, endianness, storages with their caches, `branch_to`, `is_branch_with_link`, encodings as text | texts are ASCII |
| `architecture/instruction_modifier.py` | `BitsModel.v`, `CompressModel.v` | field setters; `modify_register` (raises at `swap23`) | code after that raise |
| `architecture/capstone_instruction.py` | `InstModel.v` | register queries, memory tests, branches, flags | capstone's answer is an arbitrary record; printing |
| `architecture/arm_instruction.py` | `InstModel.v` | register queries | printing |
| `architecture/darm_instruction.py` | `DarmModel.v`, `BitsModel.v` | all queries | darm's answer is an arbitrary record (the library is not in the repository) |
| `architecture/disassembler_readers.py`, `functions.py` | `ReaderModel.v` | text and ELF listing readers | file access, objdump itself |
| `interleaver/interleaver2d.py` | `SPModel.v`, `BlaumModel.v`, `InterleaveModel.v` | everything | `log4` exact; halves and quarters exact |
| `corruption/corruption.py`, `corruptors.py` | `FlipModel.v`, `PacketModel.v`, `RandomModel.v`, `JsonModel.v` | everything | random draws are a stream; JSON is read and written character by character; the amount of corrupted addresses is computed in binary64 (`SpecFloat`) |
| `metadata/metadata_collector.py` | `MetaModel.v` | both collectors | means are exact rationals |
| `metadata/recuperator.py` | `RecModel.v`, `RulesModel.v`, `NearModel.v` | both recuperators, `_instruction_range_probs`, `_prob_of_a` | floats are exact rationals; progress output. `_pmf_register_distance` is an empty stub |
| `metadata/probabilistic_rules/*.py` | `RulesModel.v`, `IoModel.v` | all rules, conversions | floats are exact rationals |
| `metadata/probabilistic_model.py` | `RecModel.v` | constants | - |
| `probability/probabilities.py` | `ProbModel.v` | everything | exact rationals |
| `solution/solution_io.py` | `IoModel.v` | reader and writer | a file is its bytes; buffering |
| `solution/solution_builders.py` | `BuilderModel.v` | enumerators, constraint problem | `int(log(n, 2))` exact; the constraint solver library |
| `solution/solution_quality.py` | `QualityModel.v`, `DepthModel.v` | everything but printing | logarithms are real numbers |
| `compressor/huffman.py`, `shiftcompressor.py` | `HuffmanModel.v`, `CompressModel.v` | coding, sizes, part frequencies, bit removal | `heapq` is "extract a least entry" (entries are totally ordered) |
| `compressor/freq_increase.py`, `rle_improver.py`, `common_substr_creator.py` | - | - | empty stubs |
| `distributed/qos_functions.py` | `CompressModel.v`, `MiscModel.v` | everything | `modifier.py` is a socket demo and not modelled |
| `report/print_progress.py` | `ProgressModel.v`, `DrawModel.v` | when and what is printed, character by character | exact rationals; negative `decimals` |
| `static_analysis/cfg.py` | `CfgModel.v`, `CfgCountModel.v`, `LinkModel.v`, `GraphModel.v`, `FlowModel.v`, `FlowWordModel.v`, `DotModel.v` | construction, the number of instructions to use, the link to decoded instructions, helpers, removal of conditional nodes, the texts of blocks | pygraph's `digraph` from its documentation (the library is not in the repository); a `printer` |
| `static_analysis/dominators.py` | `DomModel.v` | everything | recursion limit |
| `static_analysis/ssa.py`, `value_dependency.py` | `SsaModel.v` | everything | recursion limit |
| `/recover_program.py` | `RecModel.v`, `ReportModel.v`, `InitialModel.v`, `RunModel.v`, `RealModel.v`, `WholeModel.v`, `StoreModel.v` | removal, report numbers, driver, solution files, built-in packet loss | printing, fixed file names |
| `/store_packets.py` | `StoreModel.v` | the two files as a function of the program read | file opening, argument parsing |
| `/address_sorting.py` | `MiscModel.v` | everything | - |
| `/collect_metrics.py` | `MetricsModel.v` | `collect_and_print` | the drawing, the printed dictionaries and instruction texts |
| `/comparefiles.py`, `/huffman_improver.py` | `ScriptModel.v` | what is printed, and the exception that ends the script | file names, wording |
| `/capstonetest.py`, `/ploteample.py`, `/print_hammand_graph.py` | - | - | scripts that print or plot |
| `/libs/dot/dotio.py` | `DotModel.v`, `DotMoreModel.v` | `write`, `read`, `write_hypergraph`, `read_hypergraph` | pydot keeps what it is given, names perhaps respelled; attributes other than label, weight and node type, colours |

Semantics assumed of Python: unbounded integers with two's-complement bit operations; insertion-ordered
dictionaries; stable sorts; `struct` little- and big-endian words; exceptions leave the effects made
before them; `str.split`, `int(text, base)` on ASCII. Not modelled anywhere: memory limits, the recursion
limit, time, concurrent access.

## 5. Assumptions per theorem

Taken from the `Print Assumptions` printed under each theorem.

* `C141_same`, `C169_more_partial`, `C169_more_refuted`, `C169_more_size`, `C172_count_partial`, `C172_shrinks_refuted`, `C172_size`, `C175_any_code`, `C175_entropy`, `C175_program`, `C54_count_partial`, `C54_count_refuted`, `C55_size`, `C73_fails`, `C73_highest_depth`, `C74_after_evaluate_partial`, `C74_after_evaluate_refuted`: `ClassicalDedekindReals.sig_not_dec`, `ClassicalDedekindReals.sig_forall_dec`, `FunctionalExtensionality.functional_extensionality_dep`, `Classical_Prop.classic` (axioms of the standard library's reals).
* All others are "Closed under the global context":
  * `BitsProps.v`: `C01_bits_set`, `C02_copy_bits`, `C03_is_on`, `C03_are_on`, `C03_on`, `C04_setters`, `C04_immediate`, `C04_commute`, `C04_read_back`, `C05_reverse_int`, `C05_involutive`, `C05_reverse_str`, `C06_jumping_address`, `C06_stable`
  * `BlaumProps.v`: `C133_cells`, `C133_rows`, `C133_columns_refuted`, `C133_columns_same`, `C133_columns_partial`
  * `BuilderProps.v`: `C48_never_lost`, `C48_alike_kept`, `C49_injective_refuted`, `C49_injective_partial`, `C50_decodable_refuted`, `C50_crossing_refuted`, `C50_decodable_partial`, `C50_one_word`
  * `BurstCandProps.v`: `C157_candidates`
  * `BurstProps.v`: `C156_apart`, `C156_burst`, `C156_received`, `C156_any_length`, `C156_single`
  * `CfgBlockProps.v`: `C170_blocks_refuted`, `C170_exactly`, `C170_blocks_partial`, `C170_one_condition`
  * `CfgCallProps.v`: `C115_call_inside`, `C115_dead_end`
  * `CfgCountProps.v`: `C119_all`, `C119_prefix_refuted`, `C119_prefix_partial`, `C119_too_many`, `C119_nothing`
  * `CfgEdgeProps.v`: `C117_edges_refuted`, `C117_edges_partial`, `C117_back_edges`, `C117_forward_edges`, `C63_ahead`, `C117_conditional_node`
  * `CfgFlowProps.v`: `C114_falls_through`, `C115_after_call_refuted`, `C115_call_outside_partial`, `C116_passes_over`, `C116_edge_when_removed`
  * `CfgProps.v`: `C62_partition`, `C63_refuted`, `C63_back_edge_refuted`, `C63_back_path_partial`, `C64_paths`, `C64_edges`, `C64_built`, `C80_refuted`, `C80_branch_first_partial`
  * `CfgReachProps.v`: `C118_reachable_refuted`, `C118_reachable_partial`, `C118_conditional_branches`
  * `CfgUnknownProps.v`: `C155_unknown`, `C119_exactly`
  * `CompressProps.v`: `C60_drops_listed_partial`, `C60_drops_listed_refuted`, `C60_overlap_refuted`, `C61_clears_listed_partial`, `C61_clears_listed_refuted`, `C77_changes_registers_partial`, `C77_changes_registers_refuted`
  * `ConstraintProps.v`: `C51_complete`, `C52_sound`, `C52_exact`, `C53_forward_check_refuted`, `C53_forward_check_partial`, `C75_original_accepted`
  * `CountExactProps.v`: `C85_exactly`, `C86_never_negative`
  * `DarmProps.v`: `C103_membership_partial`, `C103_once_exactly`, `C103_once_refuted`, `C104_memory_refuted`, `C104_memory_partial`, `C105_never`, `C105_decodes_refuted`, `C106_hex_text`, `C106_word`, `C106_refused`, `C107_word_refuted`, `C107_digits_partial`
  * `DarmStorageProps.v`: `C144_storages`, `C144_flags`, `C144_undefined`
  * `DecodeProps.v`: `C50_exactly`
  * `DepthProps.v`: `C141_depths`
  * `DiscardProps.v`: `C166_ruled_out_partial`, `C166_ruled_out_refuted`
  * `DistanceAnswerProps.v`: `C87_distance_answer`
  * `DistanceBoundProps.v`: `C35_bounded`, `C113_any_program`
  * `DistanceFullProps.v`: `C91_full_exactly`
  * `DistanceProps.v`: `C90_exactly`
  * `DomExactProps.v`: `C130_exactly`
  * `DomProps.v`: `C65_immediate_dominators`, `C65_tree`, `C65_returns`, `C65_unreachable_predecessor`, `C66_frontier`
  * `DotMoreProps.v`: `C173_dashes_refuted`, `C173_labels_refuted`, `C173_round_partial`, `C173_directed_exactly`, `C174_names_refuted`, `C174_round_partial`, `C174_never`, `C174_read_refuted`
  * `DotProps.v`: `C152_blocks`, `C152_values`
  * `DrawProps.v`: `C177_lines`, `C177_same_steps`, `C177_output`, `C177_agrees_refuted`, `C177_agrees_partial`
  * `ElfCutExactProps.v`: `C163_exactly`
  * `ElfCutProps.v`: `C163_cut_partial`, `C163_cut_refuted`
  * `EndProps.v`: `C143_outcome`
  * `FlipProps.v`: `C22_every_flip_once`, `C22_other_ranges`, `C23_combined_flips`, `C23_overlap_repeats`, `C24_all_subsets_refuted`, `C24_exact_combinations`, `C24_all_subsets_partial`, `C25_frame`, `C25_returns_or_draws`, `C26_shares`
  * `FlowProps.v`: `C127_straight_graph`, `C128_straight_ssa`, `C129_end_refuted`, `C129_last_executed`, `C130_dominators_refuted`, `C130_dominators_partial`
  * `FlowSignProps.v`: `C89_lowest`
  * `FlowValueProps.v`: `C135_value_flow`, `C135_decoded`
  * `FlowWordProps.v`: `C131_known_storages`, `C131_unknown_storage`, `C132_decoded_ssa_refuted`, `C132_decoded_ssa_partial`, `C132_exactly`
  * `HuffmanMoveProps.v`: `C168_only_counts`
  * `HuffmanProps.v`: `C57_prefix_code`, `C58_optimal`, `C76_monotone`, `C59_exact`, `C59_raises`
  * `InitialProps.v`: `C136_initial_written`, `C136_initial_solution`
  * `InstProps.v`: `C30_registers_used_refuted`, `C30_registers_used_partial`, `C30_written_and_read`, `C31_storages`, `C32_flags_refuted`, `C32_flags_partial`, `C33_total_refuted`, `C33_total_partial`, `C33_which`
  * `InterleaveProps.v`: `C13_round_robin`, `C14_round_trip_partial`, `C14_round_trip_exact`, `C14_single_packet_refuted`, `C14_round_trip_refuted`, `C15_losses_partial`, `C15_losses_exact`, `C15_losses_refuted`, `C16_total_loss_partial`, `C16_outcomes_partial`, `C16_total_loss_refuted`, `C21_blaum`, `C21_blaum_error`
  * `IoAgainProps.v`: `C160_again`
  * `IoAnyProps.v`: `C164_any_file`
  * `IoProps.v`: `C45_round_trip`, `C45_list_original`, `C46_truncated`, `C46_wrong_magic`, `C46_failed_write`, `C47_refuses`, `C47_writable`, `C71_list_dict`, `C71_functions`
  * `IoSizeProps.v`: `C178_size`, `C178_ranks_decide`
  * `JsonCutProps.v`: `C159_cut`, `C159_appended`
  * `JsonProps.v`: `C29_json_round_trip`, `C29_json_identity`, `C29_saved_corruption_reloads`
  * `LinkProps.v`: `C120_link_refuted`, `C120_link_partial`, `C121_return_refuted`, `C121_return_partial`, `C122_target_refuted`, `C122_target_partial`, `C123_indirect_refuted`, `C123_computed_partial`, `C124_builds`, `C125_branches_refuted`, `C125_branches_partial`
  * `LossOrderProps.v`: `C165_more_losses_partial`, `C165_same_losses`, `C165_more_losses_refuted`
  * `MetaProps.v`: `C34_counts`, `C35_distances`, `C35_entries`, `C35_decoded`, `C36_empty_spaces`, `C37_addresses`
  * `MetricsProps.v`: `C149_lines`, `C149_bars`
  * `MiscProps.v`: `C94_every_third`, `C94_share`, `C95_one_to_one`, `C95_onto`, `C95_orders`
  * `NearProps.v`: `C171_share`, `C171_near_refuted`, `C171_near_partial`, `C171_bounds`
  * `NeighbourProps.v`: `C147_neighbours_refuted`, `C147_capstone`, `C147_neighbours_partial`
  * `OnePassProps.v`: `C92_one_pass`, `C113_all_scores`
  * `OrderProps.v`: `C150_order`, `C150_removal`, `C150_reports`, `C151_again`, `C151_no_memory`, `C151_restart`
  * `OutcomeProps.v`: `C142_exactly`, `C142_table`
  * `OverlapProps.v`: `C60_overlap_exact`
  * `PacketProps.v`: `C17_predicted_bits_refuted`, `C17_predicted_bits_exact`, `C17_predicted_bits_partial`, `C18_keeps_program_refuted`, `C18_keeps_program_partial`, `C18_arguments`, `C19_candidates`, `C19_candidates_of_losses`, `C20_no_repeats_refuted`, `C20_no_repeats_partial`
  * `PassesProps.v`: `C158_completes_partial`, `C158_completes_refuted`
  * `ProbProps.v`: `C56_union`, `C56_probability`, `C56_intersection`, `C56_uniform`
  * `ProgressProps.v`: `C72_finishes_once`, `C72_fraction_never_finishes`, `C79_bounded_output`
  * `QueueProps.v`: `C07_fifo_partial`, `C07_fifo_exactly_divisors`, `C07_fifo_refuted`, `C08_get_bytes`
  * `RandomProps.v`: `C27_corrupt_instruction`, `C27_too_many_bits`, `C28_amount_refuted`, `C28_corrupt_program_partial`, `C28_any_percentage`
  * `ReachProps.v`: `C146_reach_refuted`, `C146_reach_partial`
  * `ReaderCutProps.v`: `C161_cut_partial`, `C161_bytes_complete`, `C161_exactly`, `C161_cut_refuted`
  * `ReaderProps.v`: `C69_text_lines`, `C78_same_instructions`, `C78_before_headers`, `C78_header`, `C70_functions`
  * `RealProps.v`: `C139_at_rest`, `C139_settled`
  * `RecProps.v`: `C38_scores`, `C38_no_invalid`, `C39_original_scores_refuted`, `C39_original_scores_partial`, `C40_original_kept_refuted`, `C40_original_kept_partial`, `C41_removal`, `C42_terminates`, `C42_recuperator`, `C43_branch_table`, `C44_push_pop_refuted`, `C44_push_pop_partial`
  * `ReportProps.v`: `C96_tally`, `C97_verdicts_partial`, `C97_verdicts_refuted`, `C98_depths`, `C98_repeated`, `C99_exactly_partial`, `C99_returns_refuted`, `C100_reorders`, `C100_again`, `C101_bad_rules`, `C102_files`, `C102_only_unsolved`, `C102_finishes_refuted`
  * `RuleDiscardProps.v`: `C167_ruled_out_partial`, `C167_ruled_out_refuted`
  * `RuleOrderProps.v`: `C162_order_partial`, `C162_order_refuted`
  * `RulesProps.v`: `C85_mean_of_shares_partial`, `C85_mean_of_shares_refuted`, `C85_unknown_value`, `C86_scores_in_range_partial`, `C86_scores_in_range_refuted`, `C87_answer_partial`, `C87_answer_refuted`, `C88_again`, `C89_flow_score`, `C89_not_negative_partial`, `C89_not_negative_refuted`, `C90_distance_score_partial`, `C90_distance_score_refuted`, `C91_certain_write_partial`, `C91_certain_write_refuted`, `C92_recuperator`, `C93_kept_exactly`, `C93_original_kept_partial`, `C93_original_kept_refuted`, `C113_each_rule_alone`, `C113_scores`
  * `RunProps.v`: `C137_final_solution`, `C137_packet_loss`
  * `SPProps.v`: `C09_numbering`, `C09_degenerate`, `C10_burst_spread`, `C11_order_permutation`, `C12_store_order_partial`, `C12_usable_exactly`, `C12_store_order_refuted`
  * `ScriptProps.v`: `C153_sizes_partial`, `C153_sizes_refuted`, `C154_reports_partial`, `C154_ends`, `C154_reports_refuted`, `C154_malformed`
  * `SeenProps.v`: `C134_capstone`, `C134_darm`
  * `SharesProps.v`: `C148_shares`
  * `SiftProps.v`: `C138_pass`, `C138_run`, `C138_settled`
  * `SkipProps.v`: `C126_sequence_ssa`
  * `SsaProps.v`: `C67_single_assignment`, `C68_refuted`, `C68_raises_refuted`, `C68_numbers`, `C68_same_block_partial`, `C68_above_partial`, `C68_returns`, `C81_placement`, `C81_total`, `C81_kept`, `C82_used_names_defined`, `C83_arguments`, `C84_value_dependency`
  * `StackProps.v`: `C145_stack_refuted`, `C145_stack_partial`
  * `StorePacketsProps.v`: `C110_store_partial`, `C110_store_refuted`, `C111_stored_bits_partial`, `C111_stored_bits_refuted`, `C111_every_length`, `C112_default_loss_partial`, `C112_default_loss_refuted`
  * `StoreProps.v`: `C108_received_is_candidate_partial`, `C108_received_is_candidate_refuted`, `C109_exact_candidates_partial`, `C109_exact_candidates_refuted`
  * `UnionBoundProps.v`: `C176_bounds`, `C176_monotone`, `C176_groups`
  * `VerdictProps.v`: `C97_exactly`, `C101_exactly`
  * `WholeProps.v`: `C140_constrain`, `C140_end`

`Coq.ssr.ssrunder.Under_rel.*` is loaded with `ssreflect`-based parts of the standard library (it shows in
listings of all loaded axioms); no theorem uses it.
