{
 "claims": [
  {
   "property": "C01",
   "status": "proved",
   "theorems": [
    "C01_bits_set"
   ],
   "note": ""
  },
  {
   "property": "C02",
   "status": "proved",
   "theorems": [
    "C02_copy_bits"
   ],
   "note": ""
  },
  {
   "property": "C03",
   "status": "proved",
   "theorems": [
    "C03_is_on",
    "C03_are_on",
    "C03_on"
   ],
   "note": ""
  },
  {
   "property": "C04",
   "status": "proved",
   "theorems": [
    "C04_setters",
    "C04_immediate",
    "C04_commute",
    "C04_read_back"
   ],
   "note": ""
  },
  {
   "property": "C05",
   "status": "proved",
   "theorems": [
    "C05_reverse_int",
    "C05_involutive",
    "C05_reverse_str"
   ],
   "note": ""
  },
  {
   "property": "C06",
   "status": "proved",
   "theorems": [
    "C06_jumping_address",
    "C06_stable"
   ],
   "note": ""
  },
  {
   "property": "C07",
   "status": "partial",
   "theorems": [
    "C07_fifo_partial",
    "C07_fifo_exactly_divisors",
    "C07_fifo_refuted"
   ],
   "note": "False for word sizes that do not divide 32 (C07_fifo_refuted); C07_fifo_partial proves it for the divisors and C07_fifo_exactly_divisors that these are the only ones in 1..32."
  },
  {
   "property": "C08",
   "status": "proved",
   "theorems": [
    "C08_get_bytes"
   ],
   "note": ""
  },
  {
   "property": "C09",
   "status": "proved",
   "theorems": [
    "C09_numbering",
    "C09_degenerate"
   ],
   "note": ""
  },
  {
   "property": "C10",
   "status": "proved",
   "theorems": [
    "C10_burst_spread"
   ],
   "note": ""
  },
  {
   "property": "C11",
   "status": "proved",
   "theorems": [
    "C11_order_permutation"
   ],
   "note": ""
  },
  {
   "property": "C12",
   "status": "partial",
   "theorems": [
    "C12_store_order_partial",
    "C12_usable_exactly",
    "C12_store_order_refuted"
   ],
   "note": "False for packet counts whose order cannot be stored (C12_store_order_refuted); C12_usable_exactly gives the exact extent."
  },
  {
   "property": "C13",
   "status": "proved",
   "theorems": [
    "C13_round_robin"
   ],
   "note": ""
  },
  {
   "property": "C14",
   "status": "partial",
   "theorems": [
    "C14_round_trip_partial",
    "C14_round_trip_exact",
    "C14_single_packet_refuted",
    "C14_round_trip_refuted"
   ],
   "note": "False when the chunk count is not a multiple of the packet count (tail replaced by zeros) and for one packet (RuntimeError). C14_round_trip_exact gives the exact result for every input with two packets or more."
  },
  {
   "property": "C15",
   "status": "partial",
   "theorems": [
    "C15_losses_partial",
    "C15_losses_exact",
    "C15_losses_refuted"
   ],
   "note": "False when the chunk count is not a multiple of the packet count. C15_losses_exact gives the exact stream and error list for every loss pattern."
  },
  {
   "property": "C16",
   "status": "partial",
   "theorems": [
    "C16_total_loss_partial",
    "C16_outcomes_partial",
    "C16_total_loss_refuted"
   ],
   "note": "False both ways (C16_total_loss_refuted). C16_total_loss_partial says exactly when RuntimeError is raised; C16_outcomes_partial lists all outcomes."
  },
  {
   "property": "C17",
   "status": "partial",
   "theorems": [
    "C17_predicted_bits_refuted",
    "C17_predicted_bits_exact",
    "C17_predicted_bits_partial"
   ],
   "note": "False at word ends (C17_predicted_bits_refuted). C17_predicted_bits_exact gives the predicted set for every chunk size, order, data size and loss; C17_predicted_bits_partial says everything is right away from word boundaries when chunks divide words and rounds are whole."
  },
  {
   "property": "C18",
   "status": "partial",
   "theorems": [
    "C18_keeps_program_refuted",
    "C18_keeps_program_partial",
    "C18_arguments"
   ],
   "note": "Everything holds except 'no exception': IndexError exactly when the first listed lost packet carries no data (C18_keeps_program_refuted / _partial)."
  },
  {
   "property": "C19",
   "status": "proved",
   "theorems": [
    "C19_candidates",
    "C19_candidates_of_losses"
   ],
   "note": ""
  },
  {
   "property": "C20",
   "status": "partial",
   "theorems": [
    "C20_no_repeats_refuted",
    "C20_no_repeats_partial"
   ],
   "note": "False when two lost chunks meet at a word boundary (C20_no_repeats_refuted); C20_no_repeats_partial characterises exactly when it happens."
  },
  {
   "property": "C21",
   "status": "proved",
   "theorems": [
    "C21_blaum",
    "C21_blaum_error"
   ],
   "note": ""
  },
  {
   "property": "C22",
   "status": "proved",
   "theorems": [
    "C22_every_flip_once",
    "C22_other_ranges"
   ],
   "note": ""
  },
  {
   "property": "C23",
   "status": "proved",
   "theorems": [
    "C23_combined_flips",
    "C23_overlap_repeats"
   ],
   "note": ""
  },
  {
   "property": "C24",
   "status": "partial",
   "theorems": [
    "C24_all_subsets_refuted",
    "C24_exact_combinations",
    "C24_all_subsets_partial"
   ],
   "note": "False from n = 3 on (C24_all_subsets_refuted): C24_exact_combinations proves the exact set (subsets of floor(log2 n)+1 of the bits) and C24_all_subsets_partial that 2^n encodings come out exactly when n <= 2. math.log(i,2) is modelled as the exact logarithm."
  },
  {
   "property": "C25",
   "status": "proved",
   "theorems": [
    "C25_frame",
    "C25_returns_or_draws"
   ],
   "note": "Random draws are an arbitrary finite stream; C25_returns_or_draws shows the function only ever returns or asks for more draws, and never returns when n exceeds the field width."
  },
  {
   "property": "C26",
   "status": "proved",
   "theorems": [
    "C26_shares"
   ],
   "note": ""
  },
  {
   "property": "C27",
   "status": "proved",
   "theorems": [
    "C27_corrupt_instruction",
    "C27_too_many_bits"
   ],
   "note": "The disassembler's verdict is an arbitrary function. C27_too_many_bits: more than 4 condition bits never returns."
  },
  {
   "property": "C28",
   "status": "partial",
   "theorems": [
    "C28_amount_refuted",
    "C28_corrupt_program_partial",
    "C28_any_percentage"
   ],
   "note": "The number of addresses differs from ceil(n*percent/100) because percent/100 is rounded first (C28_amount_refuted, 28% of 25 gives 8). C28_corrupt_program_partial proves the rest and that the count is the exact ceiling or, only when n*percent is a multiple of 100, one more (binary64 error bound in RandomFloat.v)."
  },
  {
   "property": "C29",
   "status": "proved",
   "theorems": [
    "C29_json_round_trip",
    "C29_json_identity",
    "C29_saved_corruption_reloads"
   ],
   "note": "The file is its text; the JSON reader is modelled for objects of integer arrays (what the writer produces)."
  },
  {
   "property": "C30",
   "status": "partial",
   "theorems": [
    "C30_registers_used_refuted",
    "C30_registers_used_partial",
    "C30_written_and_read"
   ],
   "note": "R0 inside a memory operand is never listed (C30_registers_used_refuted); C30_registers_used_partial gives the exact list and the exact KeyError condition."
  },
  {
   "property": "C31",
   "status": "proved",
   "theorems": [
    "C31_storages"
   ],
   "note": ""
  },
  {
   "property": "C32",
   "status": "partial",
   "theorems": [
    "C32_flags_refuted",
    "C32_flags_partial"
   ],
   "note": "Never true: C32_flags_partial shows CPSR is in no decoded instruction's written registers."
  },
  {
   "property": "C33",
   "status": "partial",
   "theorems": [
    "C33_total_refuted",
    "C33_total_partial",
    "C33_which"
   ],
   "note": "False for load/store multiple and branches (C33_total_refuted); C33_total_partial says exactly when each query raises."
  },
  {
   "property": "C34",
   "status": "proved",
   "theorems": [
    "C34_counts"
   ],
   "note": ""
  },
  {
   "property": "C35",
   "status": "proved",
   "theorems": [
    "C35_bounded",
    "C35_distances",
    "C35_entries",
    "C35_decoded"
   ],
   "note": "The mean is kept as (sum, number of terms); the hypothesis that written storages are nonnegative is discharged by C35_decoded. C35_bounded: a recorded distance is never negative and below the number of instructions of one of the programs collected."
  },
  {
   "property": "C36",
   "status": "proved",
   "theorems": [
    "C36_empty_spaces"
   ],
   "note": ""
  },
  {
   "property": "C37",
   "status": "proved",
   "theorems": [
    "C37_addresses"
   ],
   "note": ""
  },
  {
   "property": "C38",
   "status": "proved",
   "theorems": [
    "C38_scores",
    "C38_no_invalid"
   ],
   "note": ""
  },
  {
   "property": "C39",
   "status": "partial",
   "theorems": [
    "C39_original_scores_refuted",
    "C39_original_scores_partial"
   ],
   "note": "False of the code: a push/pop that is no branch has no register part, which the removal score reads as 0 (refuted with a witness). Partial theorem: exact condition under which the original scores 0."
  },
  {
   "property": "C40",
   "status": "partial",
   "theorems": [
    "C40_original_kept_refuted",
    "C40_original_kept_partial"
   ],
   "note": "False of the code (refuted with a witness). Partial theorem: exact condition under which the original survives a pass."
  },
  {
   "property": "C41",
   "status": "proved",
   "theorems": [
    "C41_removal"
   ],
   "note": ""
  },
  {
   "property": "C42",
   "status": "proved",
   "theorems": [
    "C42_terminates",
    "C42_recuperator"
   ],
   "note": ""
  },
  {
   "property": "C43",
   "status": "proved",
   "theorems": [
    "C43_branch_table"
   ],
   "note": ""
  },
  {
   "property": "C44",
   "status": "partial",
   "theorems": [
    "C44_push_pop_refuted",
    "C44_push_pop_partial"
   ],
   "note": "False of the code: the value is stored under 'popu' and read under 'pupo' (refuted). Partial theorem: it changes no score of any candidate."
  },
  {
   "property": "C45",
   "status": "proved",
   "theorems": [
    "C45_round_trip",
    "C45_list_original"
   ],
   "note": ""
  },
  {
   "property": "C46",
   "status": "proved",
   "theorems": [
    "C46_truncated",
    "C46_wrong_magic",
    "C46_failed_write"
   ],
   "note": ""
  },
  {
   "property": "C47",
   "status": "proved",
   "theorems": [
    "C47_refuses",
    "C47_writable"
   ],
   "note": ""
  },
  {
   "property": "C48",
   "status": "proved",
   "theorems": [
    "C48_never_lost",
    "C48_alike_kept"
   ],
   "note": ""
  },
  {
   "property": "C49",
   "status": "partial",
   "theorems": [
    "C49_injective_refuted",
    "C49_injective_partial"
   ],
   "note": "False: the product of (index+1) is commutative (C49_injective_refuted). C49_injective_partial: the value is the product of the chosen indices plus one, each below the number of remaining candidates, and that list of indices (not its product) determines the program."
  },
  {
   "property": "C50",
   "status": "partial",
   "theorems": [
    "C50_decodable_refuted",
    "C50_crossing_refuted",
    "C50_decodable_partial",
    "C50_one_word",
    "C50_exactly"
   ],
   "note": "False when a number of candidates is no power of two (C50_decodable_refuted) or an index crosses a 32-bit word (C50_crossing_refuted). C50_decodable_partial: decodable at fixed positions when neither happens; C50_one_word: a total of 32 bits is enough. C50_exactly (lists of fewer than 2^32 candidates): two originals get the same bytes exactly when at every ambiguous address the low bits kept of the two indices agree, with the number of bits kept given by the widths."
  },
  {
   "property": "C51",
   "status": "proved",
   "theorems": [
    "C51_complete"
   ],
   "note": ""
  },
  {
   "property": "C52",
   "status": "proved",
   "theorems": [
    "C52_sound",
    "C52_exact"
   ],
   "note": ""
  },
  {
   "property": "C53",
   "status": "partial",
   "theorems": [
    "C53_forward_check_refuted",
    "C53_forward_check_partial"
   ],
   "note": "False: a value with two violating fields is hidden twice, ValueError (C53_forward_check_refuted). C53_forward_check_partial: exactly when this happens, and no other exception is possible."
  },
  {
   "property": "C54",
   "status": "partial",
   "theorems": [
    "C54_count_refuted",
    "C54_count_partial"
   ],
   "note": "False of the code: sizes are summed per bin, not multiplied (C54_count_refuted). Proved: the exact value, the sum over the different sizes k of k^(number of addresses with k candidates), which is the product if all sizes agree."
  },
  {
   "property": "C55",
   "status": "proved",
   "theorems": [
    "C55_size"
   ],
   "note": ""
  },
  {
   "property": "C56",
   "status": "proved",
   "theorems": [
    "C56_union",
    "C56_probability",
    "C56_intersection",
    "C56_uniform"
   ],
   "note": ""
  },
  {
   "property": "C57",
   "status": "proved",
   "theorems": [
    "C57_prefix_code"
   ],
   "note": "The heap is modelled as its list of entries with removal of the least one (heapq is a library)."
  },
  {
   "property": "C58",
   "status": "proved",
   "theorems": [
    "C58_optimal"
   ],
   "note": "Weights are nonnegative integers (counts); every prefix code competes."
  },
  {
   "property": "C59",
   "status": "proved",
   "theorems": [
    "C59_exact",
    "C59_raises"
   ],
   "note": ""
  },
  {
   "property": "C60",
   "status": "partial",
   "theorems": [
    "C60_drops_listed_partial",
    "C60_drops_listed_refuted",
    "C60_overlap_refuted",
    "C60_overlap_exact"
   ],
   "note": "False: the first entry in position order is never dropped (C60_drops_listed_refuted) and overlapping ranges drop other bits (C60_overlap_refuted). C60_drops_listed_partial: for disjoint ranges exactly the ranges of all other entries are dropped, positions counted most significant bit first within each byte. C60_overlap_exact covers every list, overlapping or not: exactly the bits swept by all entries but a first one, counted with multiplicity, are dropped."
  },
  {
   "property": "C61",
   "status": "partial",
   "theorems": [
    "C61_clears_listed_partial",
    "C61_clears_listed_refuted"
   ],
   "note": "False: only the first bit of a range is cleared, and the first entry and entries with more than two components are skipped (C61_clears_listed_refuted). C61_clears_listed_partial: exactly which bits change."
  },
  {
   "property": "C62",
   "status": "proved",
   "theorems": [
    "C62_partition"
   ],
   "note": "Every instruction list. Also: each block holds a run of consecutive defined instructions."
  },
  {
   "property": "C63",
   "status": "partial",
   "theorems": [
    "C63_ahead",
    "C63_refuted",
    "C63_back_edge_refuted",
    "C63_back_path_partial"
   ],
   "note": "Refuted by a jump ahead (the pending jump is filed under the branch instead of the target), and by a later split of the branch's block. Proved: a jump back or to itself leaves a path from the branch's block to a block starting with the target. C63_ahead: for a jump ahead the block of the branch has an edge to the target only where control flows there from the end of the block anyway."
  },
  {
   "property": "C64",
   "status": "proved",
   "theorems": [
    "C64_paths",
    "C64_edges",
    "C64_built"
   ],
   "note": "All graphs made with the library operations and all built graphs; also the exact edges left."
  },
  {
   "property": "C65",
   "status": "proved",
   "theorems": [
    "C65_immediate_dominators",
    "C65_tree",
    "C65_returns",
    "C65_unreachable_predecessor"
   ],
   "note": "The Lengauer-Tarjan variant of the code is proved correct for every digraph: immediate dominators, tree and children lists; it fails exactly on unreachable predecessors."
  },
  {
   "property": "C66",
   "status": "proved",
   "theorems": [
    "C66_frontier"
   ],
   "note": "Proved for the blocks that build_dominator_tree leaves, for every digraph."
  },
  {
   "property": "C67",
   "status": "proved",
   "theorems": [
    "C67_single_assignment"
   ],
   "note": "For the whole SSAFormBuilder.build pipeline on any graph."
  },
  {
   "property": "C68",
   "status": "partial",
   "theorems": [
    "C68_refuted",
    "C68_raises_refuted",
    "C68_numbers",
    "C68_same_block_partial",
    "C68_above_partial",
    "C68_returns"
   ],
   "note": "Refuted: definitions of a finished subtree stay on the stacks (pop removes the oldest entry and only for variables with a phi function), so a later block reads a name of a block that does not dominate it, or the stack is empty (IndexError). C68_numbers gives the names exactly; the partial theorems give the cases in which the claim holds."
  },
  {
   "property": "C69",
   "status": "proved",
   "theorems": [
    "C69_text_lines"
   ],
   "note": "Whole files of instruction lines and lines without leading blank."
  },
  {
   "property": "C70",
   "status": "proved",
   "theorems": [
    "C70_functions"
   ],
   "note": "Listings with the function table before the code; an example shows that a function declared again after its code loses its instructions."
  },
  {
   "property": "C71",
   "status": "proved",
   "theorems": [
    "C71_list_dict",
    "C71_functions"
   ],
   "note": ""
  },
  {
   "property": "C72",
   "status": "proved",
   "theorems": [
    "C72_finishes_once",
    "C72_fraction_never_finishes"
   ],
   "note": "For whole print distances (0 or at least 1); with distance 1/2 and total 202 the 100% line is never written (C72_fraction_never_finishes). Percentages are exact rationals."
  },
  {
   "property": "C73",
   "status": "proved",
   "theorems": [
    "C73_highest_depth",
    "C73_fails"
   ],
   "note": ""
  },
  {
   "property": "C74",
   "status": "partial",
   "theorems": [
    "C74_after_evaluate_refuted",
    "C74_after_evaluate_partial"
   ],
   "note": "False of the code: evaluate() stores None as the count, so solution_count is None and solution_size raises TypeError (C74_after_evaluate_refuted). Proved: this always happens, and the bins stay available."
  },
  {
   "property": "C75",
   "status": "proved",
   "theorems": [
    "C75_original_accepted"
   ],
   "note": ""
  },
  {
   "property": "C76",
   "status": "proved",
   "theorems": [
    "C76_monotone"
   ],
   "note": ""
  },
  {
   "property": "C77",
   "status": "partial",
   "theorems": [
    "C77_changes_registers_partial",
    "C77_changes_registers_refuted"
   ],
   "note": "False: modify_register calls a method that does not exist (C77_changes_registers_refuted). C77_changes_registers_partial: it raises exactly when some used register is smaller than the number of different registers minus one, and otherwise changes nothing."
  },
  {
   "property": "C78",
   "status": "proved",
   "theorems": [
    "C78_same_instructions",
    "C78_before_headers",
    "C78_header"
   ],
   "note": "All files for the first theorem; the other two fix which function an instruction belongs to."
  },
  {
   "property": "C79",
   "status": "proved",
   "theorems": [
    "C79_bounded_output"
   ],
   "note": "Percentages are exact rationals instead of floats."
  },
  {
   "property": "C80",
   "status": "partial",
   "theorems": [
    "C80_refuted",
    "C80_branch_first_partial"
   ],
   "note": "Refuted: after a branch that starts a new condition, the next instructions with that condition join its block. Proved: a branch is always the first instruction of its block."
  },
  {
   "property": "C81",
   "status": "proved",
   "theorems": [
    "C81_placement",
    "C81_total",
    "C81_kept"
   ],
   "note": "IDF as an inductive relation; independent of how the work list runs."
  },
  {
   "property": "C82",
   "status": "proved",
   "theorems": [
    "C82_used_names_defined"
   ],
   "note": ""
  },
  {
   "property": "C83",
   "status": "proved",
   "theorems": [
    "C83_arguments"
   ],
   "note": ""
  },
  {
   "property": "C84",
   "status": "proved",
   "theorems": [
    "C84_value_dependency"
   ],
   "note": ""
  },
  {
   "property": "C85",
   "status": "partial",
   "theorems": [
    "C85_exactly",
    "C85_mean_of_shares_partial",
    "C85_mean_of_shares_refuted",
    "C85_unknown_value"
   ],
   "note": "Refuted when an ignored candidate comes before the sole defined one of a resolved address (remaining counts look only at the first candidate); partial: with that excluded. C85_exactly: the outcome for every program, metadata and address: KeyError exactly for an unknown value in an address seen as resolved, otherwise the shares of the program without the overlooked addresses. C85_unknown_value: KeyError."
  },
  {
   "property": "C86",
   "status": "partial",
   "theorems": [
    "C86_never_negative",
    "C86_scores_in_range_partial",
    "C86_scores_in_range_refuted"
   ],
   "note": "Refuted by the same shape (score 2); partial: the defined candidate of each resolved address comes first. C86_never_negative: for every program no exception, no negative score and none of 0 for an original; above 1 only if an address is overlooked."
  },
  {
   "property": "C87",
   "status": "partial",
   "theorems": [
    "C87_distance_answer",
    "C87_answer_partial",
    "C87_answer_refuted"
   ],
   "note": "Four rules proved; RegisterReadDistance refuted in both directions (update of ignored candidates is not reported; intermediate scores are). C87_distance_answer: exactly when it answers that nothing changed."
  },
  {
   "property": "C88",
   "status": "proved",
   "theorems": [
    "C88_again"
   ],
   "note": "All five rules, any cache."
  },
  {
   "property": "C89",
   "status": "partial",
   "theorems": [
    "C89_lowest",
    "C89_flow_score",
    "C89_not_negative_partial",
    "C89_not_negative_refuted"
   ],
   "note": "Exact score proved; non-negativity refuted for 'always' after a flag setter with another condition. C89_lowest: with weights that are not negative the score stays above minus the weight of a branch behind a flag setter, and is not positive only for a candidate without condition behind a defined flag setter."
  },
  {
   "property": "C90",
   "status": "partial",
   "theorems": [
    "C90_exactly",
    "C90_distance_score_partial",
    "C90_distance_score_refuted"
   ],
   "note": "Refuted: IndexError for storages numbered 20 or more; partial with all storages below 20. C90_exactly: then the exact score of every candidate, at most 1 and the average over the storages read of 1e-14 plus the largest share of the writes of a candidate in the window that ends by writing that storage."
  },
  {
   "property": "C91",
   "status": "partial",
   "theorems": [
    "C91_full_exactly",
    "C91_certain_write_partial",
    "C91_certain_write_refuted"
   ],
   "note": "Refuted: distance 0 means adjacent in the metadata but the same address in the rule; the partial theorem gives the shifted statement. C91_full_exactly: for any number of registers read, the score is 1 exactly if each of them is certainly written, alone, at some address the rule looks at (sizes below 1e14)."
  },
  {
   "property": "C92",
   "status": "proved",
   "theorems": [
    "C92_one_pass",
    "C92_recuperator"
   ],
   "note": "All pass counts for what is kept. C92_one_pass: success for one pass, wherever ignored candidates stand (conditions and storages in range)."
  },
  {
   "property": "C93",
   "status": "partial",
   "theorems": [
    "C93_original_kept_partial",
    "C93_kept_exactly",
    "C93_original_kept_refuted"
   ],
   "note": "Refuted with two passes (instruction without registers scores 0); partial for at most one pass; C93_kept_exactly has the exact condition for more passes."
  },
  {
   "property": "C94",
   "status": "proved",
   "theorems": [
    "C94_every_third",
    "C94_share"
   ],
   "note": ""
  },
  {
   "property": "C95",
   "status": "proved",
   "theorems": [
    "C95_one_to_one",
    "C95_onto",
    "C95_orders"
   ],
   "note": ""
  },
  {
   "property": "C96",
   "status": "proved",
   "theorems": [
    "C96_tally"
   ],
   "note": ""
  },
  {
   "property": "C97",
   "status": "partial",
   "theorems": [
    "C97_verdicts_partial",
    "C97_verdicts_refuted",
    "C97_exactly"
   ],
   "note": "Refuted: a candidate that prints like the original, or two best candidates with one encoding, is counted as recovered. Partial: exact when encodings are distinct and texts tell them apart. C97_exactly gives the verdicts for every report, from the best and the second candidate."
  },
  {
   "property": "C98",
   "status": "proved",
   "theorems": [
    "C98_depths",
    "C98_repeated"
   ],
   "note": ""
  },
  {
   "property": "C99",
   "status": "partial",
   "theorems": [
    "C99_exactly_partial",
    "C99_returns_refuted"
   ],
   "note": "Refuted: with no contested position the ratio divides by zero and sys.stdout stays redirected. Partial: exact condition for each outcome."
  },
  {
   "property": "C100",
   "status": "proved",
   "theorems": [
    "C100_reorders",
    "C100_again"
   ],
   "note": ""
  },
  {
   "property": "C101",
   "status": "proved",
   "theorems": [
    "C101_bad_rules",
    "C101_exactly"
   ],
   "note": "C101_bad_rules when encodings and texts tell the candidates apart; C101_exactly for every report: the positions counted as losing where the rule rates the leader above the first candidate with the original's encoding."
  },
  {
   "property": "C102",
   "status": "partial",
   "theorems": [
    "C102_files",
    "C102_only_unsolved",
    "C102_finishes_refuted"
   ],
   "note": "File sequence and 'final file iff it returns' hold for all runs; refuted that a fully recovered program gets its final solution (ZeroDivisionError in the report). C102_only_unsolved: runs that return had an address with several candidates."
  },
  {
   "property": "C103",
   "status": "partial",
   "theorems": [
    "C103_membership_partial",
    "C103_once_exactly",
    "C103_once_refuted"
   ],
   "note": "Refuted: registers appear twice when a register list comes with another written register (the list is extended by itself). Partial: exact membership; C103_once_exactly: exact condition for no repetition."
  },
  {
   "property": "C104",
   "status": "partial",
   "theorems": [
    "C104_memory_refuted",
    "C104_memory_partial"
   ],
   "note": "Refuted: str is seen as a load, push/pop of one register as no access. Partial: exact condition on the printed text."
  },
  {
   "property": "C105",
   "status": "partial",
   "theorems": [
    "C105_never",
    "C105_decodes_refuted"
   ],
   "note": "Refuted: the constructor misses an argument, TypeError for every non-empty list (C105_never)."
  },
  {
   "property": "C106",
   "status": "proved",
   "theorems": [
    "C106_hex_text",
    "C106_word",
    "C106_refused"
   ],
   "note": ""
  },
  {
   "property": "C107",
   "status": "partial",
   "theorems": [
    "C107_word_refuted",
    "C107_digits_partial"
   ],
   "note": "Refuted: a minus sign or more than eight digits are accepted. Partial: up to eight digits."
  },
  {
   "property": "C108",
   "status": "partial",
   "theorems": [
    "C108_received_is_candidate_partial",
    "C108_received_is_candidate_refuted"
   ],
   "note": "Refuted: a lost top bit that was set is received as 0 while every candidate has it set. Partial: exact condition for each word."
  },
  {
   "property": "C109",
   "status": "partial",
   "theorems": [
    "C109_exact_candidates_partial",
    "C109_exact_candidates_refuted"
   ],
   "note": "Refuted: a lost top bit is never varied, and bit 0 of the next word is varied instead. Partial: exact condition for each word."
  },
  {
   "property": "C110",
   "status": "partial",
   "theorems": [
    "C110_store_partial",
    "C110_store_refuted"
   ],
   "note": "Refuted: e.g. one instruction. Partial: exact outcome for every length."
  },
  {
   "property": "C111",
   "status": "partial",
   "theorems": [
    "C111_stored_bits_partial",
    "C111_stored_bits_refuted",
    "C111_every_length"
   ],
   "note": "Refuted: bits of lost packets are kept. C111_every_length: the exact set of cleared bits for every program the script stores; C111_stored_bits_partial: in terms of the packets that carry them, for lengths divisible by 4."
  },
  {
   "property": "C112",
   "status": "partial",
   "theorems": [
    "C112_default_loss_partial",
    "C112_default_loss_refuted"
   ],
   "note": "Refuted: IndexError/ValueError for up to 96 instructions. Partial: exact outcome for every length."
  },
  {
   "property": "C113",
   "status": "proved",
   "theorems": [
    "C113_any_program",
    "C113_all_scores",
    "C113_each_rule_alone",
    "C113_scores"
   ],
   "note": "C113_any_program: in addition, the exact value of each of the five scores after a pass over any program shorter than 2^63 instructions (C113_all_scores: for metadata with distances below sys.maxsize)."
  },
  {
   "property": "C114",
   "status": "proved",
   "theorems": [
    "C114_falls_through"
   ],
   "note": "Every instruction list. C114_falls_through gives the exact shape: same block or one edge, or one conditional node in between."
  },
  {
   "property": "C115",
   "status": "partial",
   "theorems": [
    "C115_call_inside",
    "C115_dead_end",
    "C115_after_call_refuted",
    "C115_call_outside_partial"
   ],
   "note": "Refuted: after a call to an instruction of the program nothing leads to the next instruction. Partial: calls whose target is outside, following an instruction with the same condition. C115_call_inside: after a call into the program followed by another condition the only way on is to the target, and none if the target is ahead. C115_dead_end: after a call outside whose condition is neither that of the instruction before it nor that of the next, the only way on is through the unknown node to the end, so the next instruction is not reached from the call there either."
  },
  {
   "property": "C116",
   "status": "proved",
   "theorems": [
    "C116_passes_over",
    "C116_edge_when_removed"
   ],
   "note": "Every instruction list; C116_edge_when_removed combines it with the removal of conditional nodes."
  },
  {
   "property": "C117",
   "status": "partial",
   "theorems": [
    "C117_edges_refuted",
    "C117_edges_partial",
    "C117_back_edges",
    "C117_forward_edges",
    "C117_conditional_node"
   ],
   "note": "Refuted: the block before an unconditional branch gets an edge to the instruction behind the branch. Partial: C117_edges_partial gives a reason for every edge; C117_back_edges, C117_forward_edges (an edge ahead between blocks is never that of a branch) and C117_conditional_node hold as claimed."
  },
  {
   "property": "C118",
   "status": "partial",
   "theorems": [
    "C118_reachable_refuted",
    "C118_reachable_partial",
    "C118_conditional_branches"
   ],
   "note": "Refuted: after a call into the program. Partial: programs whose unconditional branches each follow an unconditional instruction that is no branch and are no calls into the program."
  },
  {
   "property": "C119",
   "status": "partial",
   "theorems": [
    "C119_all",
    "C119_prefix_refuted",
    "C119_prefix_partial",
    "C119_too_many",
    "C119_nothing",
    "C119_exactly"
   ],
   "note": "Refuted: a branch to an instruction behind the part gets neither an edge nor an unknown target. C119_exactly: the graph is that of the part exactly when no branch of the part goes to a later instruction. C119_all, C119_too_many (IndexError) and C119_nothing give the other values of the count."
  },
  {
   "property": "C120",
   "status": "partial",
   "theorems": [
    "C120_link_refuted",
    "C120_link_partial"
   ],
   "note": "Refuted: every BX (such as the return bx lr) counts as a call, and BLX to an address may not. Partial: B and BL."
  },
  {
   "property": "C121",
   "status": "partial",
   "theorems": [
    "C121_return_refuted",
    "C121_return_partial"
   ],
   "note": "Refuted: the graph leads from bx lr to the next instruction. Partial: branches without bit 24, such as pop {pc}."
  },
  {
   "property": "C122",
   "status": "partial",
   "theorems": [
    "C122_target_refuted",
    "C122_target_partial"
   ],
   "note": "Refuted: add pc, pc, #4 is taken to jump to address 4. Partial: branches whose operand is the target, to instructions before them (jumps ahead: C63). What capstone says is a hypothesis."
  },
  {
   "property": "C123",
   "status": "partial",
   "theorems": [
    "C123_indirect_refuted",
    "C123_computed_partial"
   ],
   "note": "Refuted: pop {r4, pc} gets a target computed from its register list. Partial: the target used is the one computed from the low 24 bits, which is right for B and BL."
  },
  {
   "property": "C124",
   "status": "proved",
   "theorems": [
    "C124_builds"
   ],
   "note": "All decoded programs whose memory operands use ARM registers."
  },
  {
   "property": "C125",
   "status": "partial",
   "theorems": [
    "C125_branches_refuted",
    "C125_branches_partial"
   ],
   "note": "Refuted: str pc is taken for a branch, ldm r0, {r1, pc} is not. Partial: the exact rule."
  },
  {
   "property": "C126",
   "status": "proved",
   "theorems": [
    "C126_sequence_ssa"
   ],
   "note": "The graphs of C68's counterexample are not of this kind. Storages must be among the 20 the code knows."
  },
  {
   "property": "C127",
   "status": "proved",
   "theorems": [
    "C127_straight_graph"
   ],
   "note": "The complete graph: nodes, their instructions and the edges as an equivalence; also exactly which ways lead to a block."
  },
  {
   "property": "C128",
   "status": "proved",
   "theorems": [
    "C128_straight_ssa"
   ],
   "note": "Composition of the three analyses. Storages must be among the 20 the code knows; the program must not be empty."
  },
  {
   "property": "C129",
   "status": "partial",
   "theorems": [
    "C129_end_refuted",
    "C129_last_executed"
   ],
   "note": "False: the last block is the only predecessor of END, so a conditional last instruction is always executed (C129_end_refuted); C129_last_executed shows this for every program without branches."
  },
  {
   "property": "C130",
   "status": "partial",
   "theorems": [
    "C130_exactly",
    "C130_dominators_refuted",
    "C130_dominators_partial"
   ],
   "note": "False: an unreachable branch back makes build_dominator_tree raise RuntimeError (C130_dominators_refuted). C130_exactly: for every program, exactly when the dominators can be computed (before and after the conditional nodes are removed), RuntimeError otherwise. C130_dominators_partial: a sufficient condition on the program."
  },
  {
   "property": "C131",
   "status": "proved",
   "theorems": [
    "C131_known_storages",
    "C131_unknown_storage"
   ],
   "note": "The renaming never adds a storage to its counters; with C126 (in range) this is both directions for graphs that are a sequence."
  },
  {
   "property": "C132",
   "status": "partial",
   "theorems": [
    "C132_decoded_ssa_refuted",
    "C132_decoded_ssa_partial",
    "C132_exactly"
   ],
   "note": "False: a register outside the sixteen (for example of the floating point unit) is given a storage from 20 on, and the renaming raises KeyError (C132_decoded_ssa_refuted). C132_decoded_ssa_partial: with the sixteen registers only it holds; C132_exactly: and only then."
  },
  {
   "property": "C133",
   "status": "partial",
   "theorems": [
    "C133_cells",
    "C133_rows",
    "C133_columns_refuted",
    "C133_columns_same",
    "C133_columns_partial"
   ],
   "note": "False for columns: half way between the places where two rows begin with packet 0 both cells belong to the same packet, because of abs (C133_columns_refuted, C133_columns_same). C133_cells gives every cell, C133_rows holds for rows, C133_columns_partial for the cells of a column on the same side of those places."
  },
  {
   "property": "C134",
   "status": "proved",
   "theorems": [
    "C134_capstone",
    "C134_darm"
   ],
   "note": "With capstone an operand can fail to be known (KeyError, C124); then nothing is built. The condition is capstone's number less one."
  },
  {
   "property": "C135",
   "status": "proved",
   "theorems": [
    "C135_value_flow",
    "C135_decoded"
   ],
   "note": "An execution is a choice of which runs of instructions with the same condition are executed; the conditions themselves are not evaluated, so two runs with the same or with opposite conditions are independent. C135_decoded: the same of decoded instructions."
  },
  {
   "property": "C136",
   "status": "proved",
   "theorems": [
    "C136_initial_written",
    "C136_initial_solution"
   ],
   "note": "Addresses, the number of addresses and the number of candidates must fit 32 bits for the write to succeed (C136_initial_written); C136_initial_solution is about what is read back. Text printed for an instruction is an arbitrary function."
  },
  {
   "property": "C137",
   "status": "proved",
   "theorems": [
    "C137_final_solution",
    "C137_packet_loss"
   ],
   "note": "The recuperator, the change of score function and the constraint phase are arbitrary functions that keep addresses and add no candidates (hypotheses). run_files_events (RunProps.v) shows the model used is run_recovery of C102 with the writer filled in."
  },
  {
   "property": "C138",
   "status": "proved",
   "theorems": [
    "C138_pass",
    "C138_run",
    "C138_settled"
   ],
   "note": "As for C40 the metadata is collected from the true program. C138_run and C138_settled are about runs that complete: recover itself can stop with KeyError or ZeroDivisionError (C38_no_invalid)."
  },
  {
   "property": "C139",
   "status": "proved",
   "theorems": [
    "C139_at_rest",
    "C139_settled"
   ],
   "note": "What the instruction object answers for an encoding at an address is an arbitrary function. An exception of score() is raised by the recuperator step of the model instead of the report that follows it. The constraint phase and the change of score function are arbitrary functions that add no candidates."
  },
  {
   "property": "C140",
   "status": "proved",
   "theorems": [
    "C140_constrain",
    "C140_end"
   ],
   "note": "What the instruction object answers for an encoding at an address (fields, text, registers) is an arbitrary function in which equal texts give equal fields. int(log(n, 2)) of the builder is exact and only printed."
  },
  {
   "property": "C141",
   "status": "proved",
   "theorems": [
    "C141_depths",
    "C141_same"
   ],
   "note": "Scores and depths are exact rationals. C141_same uses the Reals axioms because the quality object of the model holds the size as a real number."
  },
  {
   "property": "C142",
   "status": "proved",
   "theorems": [
    "C142_exactly",
    "C142_table"
   ],
   "note": "Scores are exact rationals; the recuperator as in C38."
  },
  {
   "property": "C143",
   "status": "proved",
   "theorems": [
    "C143_outcome"
   ],
   "note": "The decoder, the printed text and the registers are parameters with the coherence conditions of C140; scores are exact rationals."
  },
  {
   "property": "C144",
   "status": "proved",
   "theorems": [
    "C144_storages",
    "C144_flags",
    "C144_undefined"
   ],
   "note": "The answers of the darm library (registers, name, type, printed pieces) are parameters; the text conditions are those of C104."
  },
  {
   "property": "C145",
   "status": "partial",
   "theorems": [
    "C145_stack_refuted",
    "C145_stack_partial"
   ],
   "note": "False (C145_stack_refuted): a pop after the last branch still counts as a pop in the middle, and a pop of the registers pushed is not seen as equal. C145_stack_partial: the exact value of every push and pop after any pass that completes."
  },
  {
   "property": "C146",
   "status": "partial",
   "theorems": [
    "C146_reach_refuted",
    "C146_reach_partial"
   ],
   "note": "False (C146_reach_refuted): in an unambiguous original a reader just behind the writer gets 1/1000 because nothing writes the storage at the furthest address of the window. C146_reach_partial: the exact value of every candidate after any pass that completes."
  },
  {
   "property": "C147",
   "status": "partial",
   "theorems": [
    "C147_neighbours_refuted",
    "C147_capstone",
    "C147_neighbours_partial"
   ],
   "note": "False (C147_neighbours_refuted): a conditional branch behind a cmp gets the least probability, and an ignored candidate halves a share. C147_capstone: no instruction decoded with capstone ever counts as setting the flags. C147_neighbours_partial: the exact value of every candidate after any pass that completes."
  },
  {
   "property": "C148",
   "status": "proved",
   "theorems": [
    "C148_shares"
   ],
   "note": "The exact values of the condition, the opcode and the storages of every candidate after any pass that completes."
  },
  {
   "property": "C149",
   "status": "proved",
   "theorems": [
    "C149_lines",
    "C149_bars"
   ],
   "note": "Both halves of the report, for every list of instructions."
  },
  {
   "property": "C150",
   "status": "proved",
   "theorems": [
    "C150_order",
    "C150_removal",
    "C150_reports"
   ],
   "note": "For one pass, for the removal, and for whole recoveries with any reordering after every pass."
  },
  {
   "property": "C151",
   "status": "proved",
   "theorems": [
    "C151_again",
    "C151_no_memory",
    "C151_restart"
   ],
   "note": "Repeating a pass, forgetting all scores at any stage, and restarting a finished recovery."
  },
  {
   "property": "C152",
   "status": "proved",
   "theorems": [
    "C152_blocks",
    "C152_values"
   ],
   "note": "For every graph on the blocks of a built control flow graph and for every value dependency graph; what pydot prints is not modelled."
  },
  {
   "property": "C153",
   "status": "partial",
   "theorems": [
    "C153_sizes_partial",
    "C153_sizes_refuted"
   ],
   "note": "The three sizes printed first are optimal for every program; then the script raises AttributeError, except when every register number is at least the number of different registers minus one, and then the same size is printed again."
  },
  {
   "property": "C154",
   "status": "partial",
   "theorems": [
    "C154_reports_partial",
    "C154_ends",
    "C154_reports_refuted",
    "C154_malformed"
   ],
   "note": "Exact output when every file has a verdict and no file marked equal is longer than the first; C154_ends: otherwise the script always ends with an exception (IndexError for a longer file)."
  },
  {
   "property": "C155",
   "status": "proved",
   "theorems": [
    "C155_unknown"
   ],
   "note": "For every program: as many unknown nodes as branches out of it."
  },
  {
   "property": "C156",
   "status": "proved",
   "theorems": [
    "C156_apart",
    "C156_burst",
    "C156_received",
    "C156_any_length",
    "C156_single"
   ],
   "note": "For every m, k and burst, and for packet counts of one, two or three times a power of four; C156_received uses the receiver model of C15 with whole rounds. C156_single: any packet count, one lost packet. The example shows that the distance is exact."
  },
  {
   "property": "C157",
   "status": "proved",
   "theorems": [
    "C157_candidates"
   ],
   "note": "For every set of lost packets inside one such run; the first listed lost packet must carry data (C18)."
  },
  {
   "property": "C158",
   "status": "partial",
   "theorems": [
    "C158_completes_partial",
    "C158_completes_refuted"
   ],
   "note": "Refuted: the original, an instruction without registers, is discarded and the candidate left has an unknown register (KeyError in the second pass). Partial: KeyError is the only exception, and only if a defined candidate has a value that the metadata does not know (conditions and storages in range)."
  },
  {
   "property": "C159",
   "status": "proved",
   "theorems": [
    "C159_cut",
    "C159_appended"
   ],
   "note": "For every program, cut and text behind; json.load is modelled by characters for objects of integer arrays."
  },
  {
   "property": "C160",
   "status": "proved",
   "theorems": [
    "C160_again"
   ],
   "note": "For every successful write."
  },
  {
   "property": "C161",
   "status": "partial",
   "theorems": [
    "C161_cut_partial",
    "C161_bytes_complete",
    "C161_exactly",
    "C161_cut_refuted"
   ],
   "note": "Refuted: a line cut within its four bytes is read as an instruction with fewer digits. Partial: for every cut, IndexError, ValueError, or the instructions of the complete lines and at most one more, whose address is right. C161_bytes_complete: with all four bytes there nothing is wrong. C161_exactly: what every cut of a line is read as: IndexError up to the end of the address, ValueError before the first digit, otherwise the bytes that are there with zero for the missing ones, where the first digit of a byte cut in two counts as its last."
  },
  {
   "property": "C162",
   "status": "partial",
   "theorems": [
    "C162_order_partial",
    "C162_order_refuted"
   ],
   "note": "Refuted: with an ignored and a defined candidate at one address, exchanging the two changes the score of a candidate elsewhere. Partial: the five scores agree if, at every address with one defined candidate, that one is listed first in both listings (as without ignored candidates)."
  },
  {
   "property": "C163",
   "status": "partial",
   "theorems": [
    "C163_exactly",
    "C163_cut_partial",
    "C163_cut_refuted"
   ],
   "note": "Refuted: a line cut within the digits of the encoding is read as another instruction. Partial: for every cut, ValueError, or the first instructions of the listing, followed by at most one, at the right address, whose encoding lacks its last hexadecimal digits (perhaps none of them). C163_exactly: what a listing that ends within a line of code is read as, character by character: nothing of the line without the semicolon, ValueError without a digit of the encoding (nothing or only 0x), otherwise the encoding without the missing digits."
  },
  {
   "property": "C164",
   "status": "proved",
   "theorems": [
    "C164_any_file"
   ],
   "note": "C164_any_file: for every sequence of bytes."
  },
  {
   "property": "C165",
   "status": "partial",
   "theorems": [
    "C165_more_losses_partial",
    "C165_same_losses",
    "C165_more_losses_refuted"
   ],
   "note": "Refuted: if the last round is incomplete, listing first a packet without a chunk in it hides the losses of that round. Partial: holds if the first listed packet stands no later in the order, or if all packets carry equally many chunks (C165_same_losses: then the order of the list does not matter)."
  },
  {
   "property": "C166",
   "status": "partial",
   "theorems": [
    "C166_ruled_out_partial",
    "C166_ruled_out_refuted"
   ],
   "note": "Refuted: the control flow score divides by the number of all candidates before (len(prev_inst), where the other branches use those in play), so an ignored one halves it. Partial: both passes fail or both succeed; all scores agree except that the push/pop score may be lower if its own address has an ignored candidate, and the control flow score may be lower if the address before has one, some candidate left there shares the condition and none writes the flags."
  },
  {
   "property": "C167",
   "status": "partial",
   "theorems": [
    "C167_ruled_out_partial",
    "C167_ruled_out_refuted"
   ],
   "note": "Refuted: an ignored candidate listed before the only one in play hides that address from the counting rules, and a candidate that is the only one listed is not scored. Partial: control flow and read distance scores always agree where two candidates are in play; the counting scores agree if the single candidates in play come first."
  },
  {
   "property": "C168",
   "status": "proved",
   "theorems": [
    "C168_only_counts"
   ],
   "note": "Proved. The example also shows that replacing a frequent symbol by a rarer one can cost bits."
  },
  {
   "property": "C169",
   "status": "partial",
   "theorems": [
    "C169_more_refuted",
    "C169_more_size",
    "C169_more_partial"
   ],
   "note": "Refuted for the count: from 3 and 3 candidates to 3 and 4 it drops from 9 to 7. C169_more_size: holds for the size. C169_more_partial: the exact change of the count when one address gains candidates; never downwards if no other address had as many."
  },
  {
   "property": "C170",
   "status": "partial",
   "theorems": [
    "C170_blocks_refuted",
    "C170_exactly",
    "C170_blocks_partial",
    "C170_one_condition"
   ],
   "note": "Refuted: a branch ahead does not start a block at its target. C170_exactly: two consecutive instructions are in one block exactly if the first leaves its block open (a branch does so only as first of its condition), both have one condition, the second does not branch and no later branch leads to it. C170_one_condition: all instructions of a block have one condition."
  },
  {
   "property": "C171",
   "status": "partial",
   "theorems": [
    "C171_share",
    "C171_near_refuted",
    "C171_near_partial",
    "C171_bounds"
   ],
   "note": "Refuted for the range: an instruction before the address has a positive distance. C171_near_partial: the mean of the positive scores of the matching candidates for every distance from a towards b, b left out. C171_bounds: each value lies between two of these scores. C171_share: _prob_of_a is the share, between 0 and 1."
  },
  {
   "property": "C172",
   "status": "partial",
   "theorems": [
    "C172_shrinks_refuted",
    "C172_size",
    "C172_count_partial"
   ],
   "note": "Refuted for the number of solutions: from 3 and 4 candidates (7) to 3 and 3 (9), because equal numbers are multiplied and different ones added. C172_size: the bits never grow, and stay exactly when no address with several candidates lost one. C172_count_partial: where no address is left empty, the number of solutions after the run is between 1 and one above the ways to pick a candidate per address, themselves no more than before."
  },
  {
   "property": "C173",
   "status": "partial",
   "theorems": [
    "C173_dashes_refuted",
    "C173_labels_refuted",
    "C173_round_partial",
    "C173_directed_exactly"
   ],
   "note": "Refuted: with a dash in the names two edges may have one text and the second is lost (C173_dashes_refuted); an edge without a label comes back labelled with its weight (C173_labels_refuted). C173_round_partial: without dashes the graph comes back, directed or not, with exactly these labels and weights. C173_directed_exactly: for all names, a directed edge is written exactly if no earlier one has its text."
  },
  {
   "property": "C174",
   "status": "partial",
   "theorems": [
    "C174_names_refuted",
    "C174_round_partial",
    "C174_never",
    "C174_read_refuted"
   ],
   "note": "Refuted: read takes every written hypergraph for an ordinary graph (C174_read_refuted, C174_never); read_hypergraph raises KeyError if a node and a hyperedge share a name (C174_names_refuted). C174_round_partial: otherwise read_hypergraph gives back nodes, hyperedges and links in order."
  },
  {
   "property": "C175",
   "status": "proved",
   "theorems": [
    "C175_any_code",
    "C175_entropy",
    "C175_program"
   ],
   "note": "For all counts, zero included: entropy <= size <= entropy + occurrences, strictly below if every listed symbol occurs; C175_program: the same for the parts of every program. Both bounds are met (C175_example). Logarithms are real numbers."
  },
  {
   "property": "C176",
   "status": "proved",
   "theorems": [
    "C176_bounds",
    "C176_monotone",
    "C176_groups"
   ],
   "note": "Exact numbers; rounding of floats is not modelled."
  },
  {
   "property": "C177",
   "status": "partial",
   "theorems": [
    "C177_lines",
    "C177_same_steps",
    "C177_output",
    "C177_agrees_refuted",
    "C177_agrees_partial"
   ],
   "note": "Form of the lines, their order and the percentage text proved for all calls (C177_lines); same steps and lines as the model of C72 and C79 (C177_same_steps, C177_output). Agreement of bar and percentage is false: the bar counts the step that begins, the percentage does not, so a loop of one step draws a full bar at 0.0% (C177_agrees_refuted); exactly this difference is bounded in C177_agrees_partial. Numbers are exact."
  },
  {
   "property": "C178",
   "status": "proved",
   "theorems": [
    "C178_size",
    "C178_ranks_decide"
   ],
   "note": "Exact size (C178_size) and comparison of two programs (C178_ranks_decide), for every completed write."
  }
 ]
}