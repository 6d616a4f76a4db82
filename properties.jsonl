{"id": "C01", "title": "Bit masks cover exactly the requested range", "statement": "Bits.set(hi, lo) returns the integer whose bits lo..hi (inclusive) are 1 and all others 0; it raises RuntimeError exactly when lo > hi, lo < 0 or hi >= 32, and otherwise never raises.", "quantifier": "all integers hi, lo", "why_tests_cant": "the input space is all pairs of integers; tests try one or two masks", "anchors": ["semantic_codec/architecture/bits.py:Bits.set", "semantic_codec/architecture/bits.py:Bits.check_range"]}
{"id": "C02", "title": "copy_bits copies one field and touches nothing else", "statement": "Bits.copy_bits(src, dst, f, t, d) returns an integer that has src bits f..t at positions d..d+(t-f) and the bits of dst everywhere else; it raises RuntimeError exactly when f..t or d..d+(t-f) is not a valid range inside 0..31.", "quantifier": "all integers src, dst (any size or sign) and all f, t, d", "why_tests_cant": "every value and every offset combination matters, including both shift directions; tests try one pattern", "anchors": ["semantic_codec/architecture/bits.py:Bits.copy_bits"]}
{"id": "C03", "title": "Bit tests answer the bit question", "statement": "Bits.is_on(v, b) is True exactly when bit b of v is 1; Bits.are_on(v, hi, lo) is True exactly when at least one of the bits lo..hi of v is 1; Bits.on(b) has exactly bit b set.", "quantifier": "all integers v and all bit numbers b >= 0", "why_tests_cant": "universal over values and bits", "anchors": ["semantic_codec/architecture/bits.py:Bits.is_on", "semantic_codec/architecture/bits.py:Bits.are_on", "semantic_codec/architecture/bits.py:Bits.on"]}
{"id": "C04", "title": "Instruction field setters change one field only", "statement": "For each of modify_cond, modify_opcode, modify_rn, modify_rd, modify_rs, modify_rm and modify_immediate: reading the field back from the returned encoding gives the (low bits of the) value passed, every other bit of the encoding is unchanged, a 32-bit encoding stays a 32-bit encoding, the call never raises, and setting two different 4-bit fields in either order gives the same encoding.", "quantifier": "all encodings and all field values", "why_tests_cant": "2^32 encodings times all values; most of the repository tests for these are self.fail() stubs", "anchors": ["semantic_codec/architecture/instruction_modifier.py:InstructionModifier", "semantic_codec/architecture/arm_instruction.py:ARMInstruction._rn_field_"]}
{"id": "C05", "title": "Endianness reversal is a byte reversal and an involution", "statement": "Instruction.reverse_endianess on an int returns the 32-bit number with its four bytes in reverse order (so applying it twice is the identity), and raises exactly when the int does not fit in 32 unsigned bits; on a string of eight hex digits (with any white space) the result read as hex is the int reversal of the input read as hex.", "quantifier": "all 32-bit ints and all 8-digit hex strings", "why_tests_cant": "2^32 values", "anchors": ["semantic_codec/architecture/instruction.py:Instruction.reverse_endianess"]}
{"id": "C06", "title": "Branch target arithmetic", "statement": "The computed jumping address of a branch is (address + 8 + 4 * sign_extended_24_bit_immediate) modulo 2^32, for forward and backward branches alike, and asking again gives the same answer.", "quantifier": "all encodings and addresses", "why_tests_cant": "2^24 immediates at every address, including wrap-around", "anchors": ["semantic_codec/architecture/instruction.py:Instruction.jumping_address", "semantic_codec/architecture/darm_instruction.py:DARMInstruction.jumping_address"]}
{"id": "C07", "title": "BitQueue is a FIFO of fixed-size chunks", "statement": "For every word size from 1 to 32 and every sequence of enqueue(v, f) / dequeue(v, t) calls with fields inside a 32-bit word that never dequeues more than was enqueued, the k-th dequeue returns its argument with bits t..t+w-1 replaced by the w bits of the k-th enqueued value starting at its f; empty() is True exactly when everything enqueued has been dequeued.", "quantifier": "all word sizes, all operation histories, all values", "why_tests_cant": "an unbounded history of operations crossing word boundaries; tests run one 32-bit pattern", "anchors": ["semantic_codec/architecture/bits.py:BitQueue.enqueue", "semantic_codec/architecture/bits.py:BitQueue.dequeue", "semantic_codec/architecture/bits.py:BitQueue.empty"]}
{"id": "C08", "title": "BitQueue packs chunks densely, least significant bit first", "statement": "After any sequence of enqueues of w-bit chunks (w dividing 32), get_bytes() is the list of 32-bit words whose concatenated bits, least significant first, are the chunks in order, padded with zeros: bit i of the stream is bit i mod 32 of word i div 32.", "quantifier": "all enqueue histories, w dividing 32", "why_tests_cant": "unbounded history", "anchors": ["semantic_codec/architecture/bits.py:BitQueue.get_bytes", "semantic_codec/architecture/bits.py:BitQueue.enqueue"]}
{"id": "C09", "title": "Successive packing numbers every cell once", "statement": "sucesive_packing(m) is a 2^m x 2^m matrix in which every integer 0 .. 4^m - 1 appears exactly once (and [[0]] for m <= 0).", "quantifier": "all m", "why_tests_cant": "holds for every exponent; tests look at a handful of cells for m = 2, 3", "anchors": ["semantic_codec/interleaver/interleaver2d.py:sucesive_packing"]}
{"id": "C10", "title": "Successive packing spreads bursts", "statement": "In sucesive_packing(m), for every k <= m, the 4^k numbers in any 2^k x 2^k window (any position, also wrapping around the edges) fall one in each of the 4^k blocks of 4^(m-k) consecutive integers.", "quantifier": "all m, all k <= m, all window positions", "why_tests_cant": "the whole point of the interleaver (burst errors are spread evenly) is a universally quantified statement over windows", "anchors": ["semantic_codec/interleaver/interleaver2d.py:sucesive_packing"]}
{"id": "C11", "title": "The packet order is a permutation", "statement": "For every whole number of packets P >= 1, build_2d_interleave_sp(P, flat=True) contains each of 0 .. P-1 exactly once; the non-flat form is the same numbers grouped in rows; for P <= 0 it raises IndexError.", "quantifier": "all integers P", "why_tests_cant": "all packet counts, with their greedy base-4 decomposition; tests try 241, 16 and 7", "anchors": ["semantic_codec/interleaver/interleaver2d.py:build_2d_interleave_sp"]}
{"id": "C12", "title": "store_packets builds a usable packet order for every program length", "statement": "For every program of n >= 1 instructions, the packet order store_packets.py builds (packet count n*4/16, not rounded) is built without raising and never lists one packet twice.", "quantifier": "all program lengths", "why_tests_cant": "fractional packet counts only occur for lengths not divisible by 4", "anchors": ["store_packets.py:__main__", "semantic_codec/interleaver/interleaver2d.py:build_2d_interleave_sp"]}
{"id": "C13", "title": "interleave distributes chunks round-robin", "statement": "interleave(data, order, w) with w dividing 32 puts the i-th w-bit chunk of data (words in order, least significant chunk first) in packet order[i mod len(order)], and each packet holds its chunks in stream order and nothing else.", "quantifier": "all data lists, all packet orders, all w dividing 32", "why_tests_cant": "all data lengths and orders", "anchors": ["semantic_codec/interleaver/interleaver2d.py:interleave"]}
{"id": "C14", "title": "interleave then deinterleave is lossless", "statement": "For every data list, packet order and word size dividing 32, deinterleave(interleave(data)) with no packet missing returns the data (as its first len(data) words) and an empty error list.", "quantifier": "all data, orders, w", "why_tests_cant": "depends on divisibility of the stream length by the number of packets; the repository test with 7 packets passes only because the lost bits are zero", "anchors": ["semantic_codec/interleaver/interleaver2d.py:interleave", "semantic_codec/interleaver/interleaver2d.py:deinterleave"]}
{"id": "C15", "title": "Lost packets corrupt only their own chunks and are all reported", "statement": "With any set of packets set to None (or absent, if not last in the order), deinterleave returns a stream in which every chunk of a received packet sits at its original position with its original bits, every chunk of a lost packet reads as zero, and the error list is exactly the (word, bit) start positions of the lost chunks, in order.", "quantifier": "all data, orders, w dividing 32, and all subsets of lost packets", "why_tests_cant": "2^P loss patterns", "anchors": ["semantic_codec/interleaver/interleaver2d.py:deinterleave"]}
{"id": "C16", "title": "Total loss is reported, partial loss is not", "statement": "deinterleave raises RuntimeError(\"All packets are lost\") exactly when every packet is lost.", "quantifier": "all loss patterns", "why_tests_cant": "needs the boundary patterns (one survivor, none, last packet absent)", "anchors": ["semantic_codec/interleaver/interleaver2d.py:deinterleave"]}
{"id": "C17", "title": "predict_corruption predicts what deinterleave reports", "statement": "For all parameters, the bit positions covered by the tuples returned by predict_corruption are exactly the bits of the chunks carried by the lost packets.", "quantifier": "all packet counts, chunk sizes, data sizes, orders and lost packets", "why_tests_cant": "boundary chunks at word ends only occur for some parameters; the repository test encodes the observed output", "anchors": ["semantic_codec/corruption/corruption.py:predict_corruption"]}
{"id": "C18", "title": "PacketCorruptor never loses the true program", "statement": "After PacketCorruptor.corrupt(program), the program has exactly the same addresses, each original encoding is still among the candidates of its address, candidates are sorted by encoding, and no exception is raised for chunk sizes 1..31.", "quantifier": "all programs, packet losses, orders", "why_tests_cant": "for every loss pattern", "anchors": ["semantic_codec/corruption/corruptors.py:PacketCorruptor.corrupt", "semantic_codec/corruption/corruptors.py:PacketCorruptor._corrupt_address"]}
{"id": "C19", "title": "PacketCorruptor candidates are exactly the flips of the predicted bits", "statement": "After PacketCorruptor.corrupt(program) on a program with one candidate per address, the candidates at the i-th lowest address are exactly the original encoding with every subset of the bits that predict_corruption reports for word i flipped; addresses for which no error is predicted are untouched.", "quantifier": "all programs and losses", "why_tests_cant": "2^n candidate sets at every address", "anchors": ["semantic_codec/corruption/corruptors.py:PacketCorruptor.corrupt"]}
{"id": "C20", "title": "PacketCorruptor lists each candidate once", "statement": "No address has two candidates with the same encoding after PacketCorruptor.corrupt.", "quantifier": "all programs and losses", "why_tests_cant": "only fails when two predicted ranges overlap", "anchors": ["semantic_codec/corruption/corruptors.py:PacketCorruptor._corrupt_address"]}
{"id": "C21", "title": "Blaum interleaving matrix is well formed", "statement": "build_2d_interleave_matrix_blaum returns data_height rows of data_width packet numbers, each between 0 and m-1 where m is the number of packets, inferring the missing dimension, and raises RuntimeError exactly when neither dimension is given (m >= 1).", "quantifier": "all sizes", "why_tests_cant": "all sizes", "anchors": ["semantic_codec/interleaver/interleaver2d.py:build_2d_interleave_matrix_blaum"]}
{"id": "C22", "title": "corrupt_all_bits enumerates every flip exactly once", "statement": "corrupt_all_bits(lo, hi, e) starts with e and contains exactly the encodings obtained from e by flipping a subset of the bits lo..hi-1, each exactly once (2^(hi-lo) of them).", "quantifier": "all e, lo, hi", "why_tests_cant": "exponential candidate set", "anchors": ["semantic_codec/corruption/corruption.py:corrupt_all_bits"]}
{"id": "C23", "title": "corrupt_all_bits_tuples enumerates every combined flip", "statement": "corrupt_all_bits_tuples(ts, e) has length 2^(total width), starts with e, contains exactly the encodings obtained from e by flipping a subset of the covered bits, without repetition when the ranges are disjoint; it raises RuntimeError exactly when some (lo, hi) has lo > hi, lo < 0 or hi >= 32.", "quantifier": "all lists of ranges and all e", "why_tests_cant": "exponential candidate set; behaviour with overlapping ranges is documented as unexpected", "anchors": ["semantic_codec/corruption/corruption.py:corrupt_all_bits_tuples"]}
{"id": "C24", "title": "corrupt_bits returns every combination of the chosen bit errors", "statement": "corrupt_bits(hi, lo, n, e) returns e and all the encodings resulting from flipping subsets of the n randomly chosen bits (2^n encodings).", "quantifier": "all n, e and all random choices", "why_tests_cant": "needs n >= 3 and knowledge of the random choice", "anchors": ["semantic_codec/corruption/corruption.py:corrupt_bits"]}
{"id": "C25", "title": "corrupt_bits stays inside the requested bits", "statement": "Whatever bits are drawn, corrupt_bits(hi, lo, n, e) starts with e, never repeats an encoding, every encoding differs from e only in bits lo..hi and in at most n bits, and there is at least one corrupted encoding when n >= 1.", "quantifier": "all n, e and all random choices", "why_tests_cant": "random choices", "anchors": ["semantic_codec/corruption/corruption.py:corrupt_bits"]}
{"id": "C26", "title": "distribute_random_amount never hands out more than it has", "statement": "distribute_random_amount(amount, bins) returns one non-negative number per bin whose sum is at most amount (exactly [amount] for one bin), whatever the random draws; bins beyond the exhaustion point get 0.", "quantifier": "all amounts, bins and random draws", "why_tests_cant": "random draws", "anchors": ["semantic_codec/corruption/corruption.py:distribute_random_amount"]}
{"id": "C27", "title": "corrupt_instruction only adds candidates", "statement": "corrupt_instruction keeps all existing candidates of the address in place, never touches other addresses, and appends only defined instructions at the original address whose encodings are pairwise different, different from the original, and differ from it only in the condition bits (28..31), the register bits (0..10) or the opcode bits (20..27) that were requested.", "quantifier": "all programs, flags, amounts and random draws", "why_tests_cant": "random draws", "anchors": ["semantic_codec/corruption/corruption.py:corrupt_instruction"]}
{"id": "C28", "title": "corrupt_program corrupts the announced number of instructions", "statement": "When corrupt_program returns, exactly ceil(max(1, n * percent / 100)) addresses that had one candidate have more than one, all other addresses are untouched, the original stays first, and the encodings at each corrupted address are pairwise different.", "quantifier": "all programs, percentages, limits and random draws", "why_tests_cant": "random draws", "anchors": ["semantic_codec/corruption/corruption.py:corrupt_program"]}
{"id": "C29", "title": "Corrupted programs survive a save and load", "statement": "load_corrupted_program_from_json(save_corrupted_program_to_json(p)) has the same addresses, in order, with the same candidate encodings in order.", "quantifier": "all programs", "why_tests_cant": "all programs", "anchors": ["semantic_codec/corruption/corruption.py:save_corrupted_program_to_json", "semantic_codec/corruption/corruption.py:load_corrupted_program_from_json"]}
{"id": "C30", "title": "Register lists of a decoded instruction are complete and without repetition", "statement": "CAPSInstruction.registers_used() lists, without repetition, every register that appears as a register operand or as base or index of a memory operand; registers_written() and registers_read() only name used registers (or SP for push/pop).", "quantifier": "all disassembler outputs", "why_tests_cant": "all operand lists; the register that shares its number with \"none\" is a corner case", "anchors": ["semantic_codec/architecture/capstone_instruction.py:CAPSInstruction.registers_used", "semantic_codec/architecture/arm_constants.py:AReg.CAPSTONE_REGS"]}
{"id": "C31", "title": "Storages extend registers by memory and never change between calls", "statement": "storages_used/written/read return the register lists plus STORE (16) exactly when memory is accessed (plus PC for branches that do not list it, plus NOREG when nothing is used), and a second call returns the same list as the first.", "quantifier": "all instructions and call histories", "why_tests_cant": "call histories with caching of falsy lists", "anchors": ["semantic_codec/architecture/instruction.py:Instruction.storages_used", "semantic_codec/architecture/instruction.py:Instruction.storages_written", "semantic_codec/architecture/instruction.py:Instruction.storages_read"]}
{"id": "C32", "title": "Flag-setting instructions are recognised by the recovery heuristics", "statement": "If an instruction updates the flags, the control-flow heuristic of the recuperator counts it as a flag modifier (CPSR is listed among its written registers).", "quantifier": "all disassembler outputs", "why_tests_cant": "the repository never asserts it", "anchors": ["semantic_codec/metadata/recuperator.py:ProbabilisticRecuperator._compute_proper_cfg", "semantic_codec/architecture/capstone_instruction.py:CAPSInstruction.registers_written"]}
{"id": "C33", "title": "ARMInstruction register queries are total", "statement": "For every 32-bit encoding registers_used, registers_written and registers_read return a list of register numbers 0..15 without raising.", "quantifier": "all 2^32 encodings", "why_tests_cant": "2^32 encodings", "anchors": ["semantic_codec/architecture/arm_instruction.py:ARMInstruction"]}
{"id": "C34", "title": "MetadataCollector counts every field exactly", "statement": "After collect(instructions) on a fresh collector, condition_count[c] / instruction_count[o] / storage_count[s] are exactly the number of non-ignored instructions (for storages: number of occurrences) with that condition / opcode / storage, keys with no occurrence are absent, and collecting a second list adds up.", "quantifier": "all instruction lists", "why_tests_cant": "all programs", "anchors": ["semantic_codec/metadata/metadata_collector.py:MetadataCollector.collect"]}
{"id": "C35", "title": "Register distances are the true write-to-read distances", "statement": "storage_min_dist[s], storage_max_dist[s] and storage_mean_dist[s] are the minimum, maximum and mean, over all pairs of a write of s and the first following read of s with no other write or read of s between them, of the number of (non-ignored) instructions strictly between; they exist exactly when such a pair exists, and min <= mean <= max.", "quantifier": "all instruction lists, all storages 0..19", "why_tests_cant": "all programs; test only checks min <= mean <= max on one file", "anchors": ["semantic_codec/metadata/metadata_collector.py:MetadataCollector.collect"]}
{"id": "C36", "title": "empty_spaces is the sorted set of encodings", "statement": "After collect, empty_spaces holds, in strictly decreasing order of encoding, one instruction for each distinct encoding of the non-ignored instructions and nothing else.", "quantifier": "all instruction lists", "why_tests_cant": "all programs", "anchors": ["semantic_codec/metadata/metadata_collector.py:MetadataCollector.collect"]}
{"id": "C37", "title": "Corrupted-program statistics count addresses", "statement": "CorruptedProgramMetadataCollector.collect(program) sets address_with_cond[c] / address_with_op[o] / address_with_reg[s] to the number of addresses that have at least one non-ignored candidate with that field, with no key for a count of zero, independently of earlier collects.", "quantifier": "all programs", "why_tests_cant": "all candidate sets", "anchors": ["semantic_codec/metadata/metadata_collector.py:CorruptedProgramMetadataCollector.collect"]}
{"id": "C38", "title": "Scores are probabilities", "statement": "For every corrupted program that still contains the original instruction at every address, every score part the recuperator stores is in [0, 1] and score() returns a number in [0, 1] without raising \"Invalid probability\".", "quantifier": "all programs, candidate sets and collectors built from the original", "why_tests_cant": "quantifies over all candidate sets", "anchors": ["semantic_codec/metadata/recuperator.py:probabilistic_rules", "semantic_codec/metadata/recuperator.py:probabilistic_rules_remove_step", "semantic_codec/metadata/recuperator.py:ProbabilisticRecuperator"]}
{"id": "C39", "title": "The true instruction never scores zero", "statement": "For every corrupted program that contains the original at every address, the original candidate gets a score > 0.", "quantifier": "all programs", "why_tests_cant": "quantifies over all candidate sets", "anchors": ["semantic_codec/metadata/recuperator.py:ProbabilisticRecuperator._recover", "semantic_codec/metadata/recuperator.py:probabilistic_rules_remove_step"]}
{"id": "C40", "title": "A recovery pass never removes the true instruction", "statement": "For every corrupted program that contains the original at every address, after a recovery pass and the removal of bad candidates the original is still a candidate at every address.", "quantifier": "all programs and candidate sets", "why_tests_cant": "the failing case needs a candidate with fewer, fully determined registers", "anchors": ["recover_program.py:run_recovery", "recover_program.py:remove_bad_candidates_at_addr", "semantic_codec/metadata/recuperator.py:probabilistic_rules_remove_step"]}
{"id": "C41", "title": "Removal keeps exactly the best class of candidates", "statement": "remove_bad_candidates_at_addr(v) keeps, in order, exactly the candidates of score 1 if there is one and exactly those of non-zero score otherwise; it returns the number removed and doing it again removes nothing.", "quantifier": "all candidate lists and scores in [0,1]", "why_tests_cant": "mutation of a list while iterating, all lists", "anchors": ["recover_program.py:remove_bad_candidates_at_addr"]}
{"id": "C42", "title": "The recovery loop terminates and only shrinks candidate sets", "statement": "Whatever scores the recuperator assigns, the pass loop of run_recovery stops after at most (number of candidates + 1) passes, never adds a candidate and never changes the set of addresses.", "quantifier": "all programs and all scoring functions", "why_tests_cant": "termination for every history of passes", "anchors": ["recover_program.py:run_recovery"]}
{"id": "C43", "title": "Branch-address score follows its decision table", "statement": "A branch scores branch_to_this_method exactly when its target lies in the current function, branch_to_other_method_start when it is the start of another function, just_any_jump_is_valid when outside the program, and twice that when unknown or elsewhere; non-branches get no such score.", "quantifier": "all targets, functions and programs", "why_tests_cant": "all targets incl. boundaries", "anchors": ["semantic_codec/metadata/recuperator.py:ProbabilisticRecuperator._compute_branch_address"]}
{"id": "C44", "title": "The push/pop heuristic influences the ranking", "statement": "The push/pop probability computed for a candidate changes the value of its final probabilistic score.", "quantifier": "all candidates", "why_tests_cant": "needs comparing all score dictionaries", "anchors": ["semantic_codec/metadata/recuperator.py:ProbabilisticRecuperator._compute_push_pop", "semantic_codec/metadata/recuperator.py:probabilistic_rules"]}
{"id": "C45", "title": "Solution files round-trip", "statement": "Reading back what SolutionWriter.write_binary wrote gives, for every address in order, the candidates up to and including the first one equal to the original, and that original; it works for every program whose addresses and encodings fit in 32 bits and whose candidate lists contain the original.", "quantifier": "all programs", "why_tests_cant": "all programs and byte values", "anchors": ["semantic_codec/solution/solution_io.py:SolutionWriter.write_binary", "semantic_codec/solution/solution_io.py:SolutionReader.read"]}
{"id": "C46", "title": "A truncated solution file is rejected", "statement": "If the file is cut at any byte before its end (a crash while writing), SolutionReader.read raises instead of returning a program; a file with a wrong magic word is rejected with RuntimeError; bytes after the end are ignored.", "quantifier": "all programs and all cut points", "why_tests_cant": "every crash point", "anchors": ["semantic_codec/solution/solution_io.py:SolutionReader.read"]}
{"id": "C47", "title": "The writer refuses programs without the original", "statement": "write_binary raises exactly when some address lacks the original encoding (or is unknown to the original program) or a value does not fit in 32 bits.", "quantifier": "all programs", "why_tests_cant": "all programs", "anchors": ["semantic_codec/solution/solution_io.py:SolutionWriter.write_binary"]}
{"id": "C48", "title": "Forward constraint solving never loses the true program", "statement": "If every address whose instruction is not ignored offers the original instruction, ForwardConstraintSolutionEnumerator.build() terminates without raising, every non-ignored original remains a candidate, and at the end all metadata counts are zero.", "quantifier": "all programs and candidate lists", "why_tests_cant": "greedy elimination over all orders and lists", "anchors": ["semantic_codec/solution/solution_builders.py:AbstractForwardConstraintSolutionBuilder.build"]}
{"id": "C49", "title": "The enumerated solution identifies the program", "statement": "Two different selections of candidates (different original programs for the same candidate lists) get different values of ForwardConstraintSolutionEnumerator.solution.", "quantifier": "all pairs of selections", "why_tests_cant": "injectivity over all selections", "anchors": ["semantic_codec/solution/solution_builders.py:ForwardConstraintSolutionEnumerator"]}
{"id": "C50", "title": "The bit solution can be decoded", "statement": "From ForwardConstraintSolutionBuilder.solution and the candidate lists one can read back the index of the correct candidate at every address.", "quantifier": "all programs", "why_tests_cant": "candidate counts that are not powers of two, word-boundary crossings", "anchors": ["semantic_codec/solution/solution_builders.py:ForwardConstraintSolutionBuilder"]}
{"id": "C51", "title": "Exact-sum constraint decides complete assignments exactly", "statement": "For a complete assignment, ExactFieldSumConstraint returns True exactly when, for every key, the number of occurrences of the field value among the non-ignored assigned instructions equals the required count.", "quantifier": "all assignments and counts", "why_tests_cant": "all assignments", "anchors": ["semantic_codec/solution/solution_builders.py:ExactFieldSumConstraint.__call__"]}
{"id": "C52", "title": "Exact-sum pruning is sound", "statement": "For a partial assignment, the constraint returns False, or hides a domain value during forward checking, only if no completion (using that value) satisfies the constraint.", "quantifier": "all partial assignments, domains and counts", "why_tests_cant": "quantifies over all completions", "anchors": ["semantic_codec/solution/solution_builders.py:ExactFieldSumConstraint.__call__"]}
{"id": "C53", "title": "Forward checking never crashes", "statement": "ExactFieldSumConstraint with forward checking never raises.", "quantifier": "all partial assignments and domains", "why_tests_cant": "needs a value with two violating fields", "anchors": ["semantic_codec/solution/solution_builders.py:ExactFieldSumConstraint.__call__"]}
{"id": "C54", "title": "solution_count is the number of solutions", "statement": "SolutionQuality.solution_count is the number of ways to pick one candidate per address.", "quantifier": "all programs", "why_tests_cant": "product over all addresses", "anchors": ["semantic_codec/solution/solution_quality.py:SolutionQuality._count_solutions"]}
{"id": "C55", "title": "solution_size is the number of bits needed", "statement": "SolutionQuality.solution_size is the base-2 logarithm of the number of ways to pick one candidate per address (all addresses non-empty); solution_count_bins[k] is the number of addresses with k candidates.", "quantifier": "all programs", "why_tests_cant": "all programs", "anchors": ["semantic_codec/solution/solution_quality.py:SolutionQuality._count_solutions"]}
{"id": "C56", "title": "Union of independent events", "statement": "indep_events_union(ps) = 1 - product of (1 - p) for every non-empty list, lies in [0,1] for probabilities, does not depend on the order, and raises RuntimeError exactly for the empty list; indep_intersection(ps) is the product. uniform(a, b) is the number that gives 1 when multiplied with b - a, and raises ZeroDivisionError exactly when there is none.", "quantifier": "all lists of numbers", "why_tests_cant": "2^n - 1 subset terms enumerated with an explicit stack", "anchors": ["semantic_codec/probability/probabilities.py"]}
{"id": "C57", "title": "Huffman codes are a complete prefix code over the symbols", "statement": "encode(freq) gives every symbol exactly one code word; no code word is a prefix of another; the code is complete (sum of 2^-length = 1); any symbol sequence encoded bit by bit decodes uniquely (two symbols or more).", "quantifier": "all frequency tables", "why_tests_cant": "all tables with ties", "anchors": ["semantic_codec/compressor/huffman.py:encode"]}
{"id": "C58", "title": "Huffman size is optimal", "statement": "huffman_size(freq) is the minimum, over all prefix codes for the symbols, of the total encoded length.", "quantifier": "all frequency tables and all competing codes", "why_tests_cant": "quantifies over all prefix codes", "anchors": ["semantic_codec/compressor/huffman.py:encode", "semantic_codec/compressor/huffman.py:huffman_size"]}
{"id": "C59", "title": "Part frequency counting is exact", "statement": "InstructionPartFrequencyCounter: freq[k] is the number of occurrences of k over the program, and instructions_with[k] lists in program order, once each, exactly the instructions containing k.", "quantifier": "all programs", "why_tests_cant": "all programs", "anchors": ["semantic_codec/compressor/huffman.py:InstructionPartFrequencyCounter.freq_info"]}
{"id": "C60", "title": "ShiftCompressor removes exactly the reported bits", "statement": "ShiftCompressor.compress drops exactly the bit ranges listed in remove_bits and keeps every other bit in order.", "quantifier": "all data and lists of positions", "why_tests_cant": "all lists", "anchors": ["semantic_codec/compressor/shiftcompressor.py:ShiftCompressor.compress"]}
{"id": "C61", "title": "SwapCompressor clears exactly the reported bits", "statement": "SwapCompressor.compress keeps the length of the data, clears the listed bit ranges and leaves every other bit unchanged.", "quantifier": "all data and lists of positions", "why_tests_cant": "all lists", "anchors": ["semantic_codec/compressor/shiftcompressor.py:SwapCompressor.compress"]}
{"id": "C62", "title": "Every instruction is in exactly one basic block", "statement": "After ARMControlFlowGraph.build(), every defined instruction of the program occurs in exactly one block, exactly once, and the construction never raises a graph error.", "quantifier": "all instruction lists", "why_tests_cant": "all branch/condition layouts", "anchors": ["semantic_codec/static_analysis/cfg.py:ARMControlFlowGraph.build"]}
{"id": "C63", "title": "Every statically known branch has an edge to its target block", "statement": "For every branch whose target address is in the program, the graph has an edge from the block containing the branch to the block that starts with the target.", "quantifier": "all programs", "why_tests_cant": "forward and backward jumps", "anchors": ["semantic_codec/static_analysis/cfg.py:ARMControlFlowGraph._branch_instruction"]}
{"id": "C64", "title": "Removing conditional nodes preserves paths", "statement": "After remove_conditionals() the graph has no conditional node, and for any two remaining nodes there is a non-empty path after exactly when there was one before.", "quantifier": "all graphs", "why_tests_cant": "all graphs and processing orders", "anchors": ["semantic_codec/static_analysis/cfg.py:ARMControlFlowGraph.remove_conditionals"]}
{"id": "C65", "title": "The dominator tree is correct", "statement": "Whenever build_dominator_tree(graph, root) returns, the idom of every node reachable from root (other than root) is its immediate dominator, root and unreachable nodes have none, and the returned tree and the dom_successors lists hold exactly these pairs. It returns exactly when no unreachable node has an edge to a reachable node other than root, and raises RuntimeError otherwise.", "quantifier": "all directed graphs and all roots in them", "why_tests_cant": "all graphs", "anchors": ["semantic_codec/static_analysis/dominators.py:build_dominator_tree"]}
{"id": "C66", "title": "Dominance frontiers are correct", "statement": "After build_dominator_tree has returned, build_dominance_frontier sets dom_frontier of every reachable node n to exactly the reachable nodes m such that n dominates a reachable predecessor of m but does not strictly dominate m, each once.", "quantifier": "all directed graphs and all roots in them", "why_tests_cant": "all graphs", "anchors": ["semantic_codec/static_analysis/ssa.py:build_dominance_frontier"]}
{"id": "C67", "title": "SSA names are assigned once", "statement": "In the SSA form every (variable, index) pair is written by at most one instruction or phi function, whatever the graph and dominator tree.", "quantifier": "all graphs and instructions", "why_tests_cant": "all graphs", "anchors": ["semantic_codec/static_analysis/ssa.py:SSAFormBuilder._rename_node"]}
{"id": "C68", "title": "SSA reads refer to the reaching definition", "statement": "Every SSA name read by an instruction is the definition that dominates the read (the last one before it on the dominator-tree path).", "quantifier": "all graphs and instructions", "why_tests_cant": "all graphs; needs branching dominator trees", "anchors": ["semantic_codec/static_analysis/ssa.py:SSAFormBuilder._rename_node"]}
{"id": "C69", "title": "Text disassembly lines parse to what they say", "statement": "For every file whose lines are either instruction lines \" <prefix without colon>:<hex address> <4 little-endian hex bytes>\", optionally followed by two blanks and any comment, or lines not starting with a blank, TextDisassembleReader.read_instructions returns exactly the instructions written on the instruction lines, in order, with the encoding and address they say.", "quantifier": "all files of such lines: all prefixes, addresses, encodings, digit cases and comments, any number of lines", "why_tests_cant": "all lines", "anchors": ["semantic_codec/architecture/disassembler_readers.py:TextDisassembleReader.read_instructions"]}
{"id": "C70", "title": "ELF listing reader assigns each instruction to the function it is in", "statement": "For every listing whose function table precedes its code sections, ElfioTextDisassembleReader.read returns all instructions in file order, and one function per distinct declared address (in order of first declaration, named as last declared) whose instructions are exactly those, in order, from an instruction at the function's address up to the next instruction at a declared address.", "quantifier": "all function tables and all code sections, with blank lines anywhere and with or without 0x prefixes", "why_tests_cant": "all listings", "anchors": ["semantic_codec/architecture/disassembler_readers.py:ElfioTextDisassembleReader.read"]}
{"id": "C71", "title": "Program list/dictionary conversions agree", "statement": "from_instruction_dict_to_list(from_instruction_list_to_dict(l)) is the instructions in increasing address order, one singleton per address, the last instruction winning for repeated addresses; from_functions_to_list_and_addr sorts all instructions by address and maps every function start to its (start, end).", "quantifier": "all instruction and function lists", "why_tests_cant": "all lists", "anchors": ["semantic_codec/metadata/probabilistic_rules/rules.py"]}
{"id": "C72", "title": "Progress bar is bounded and finishes once", "statement": "For any total, any start of at least 0, any whole print distance of at least 0 and any number of progress() calls, no call fails, the iteration never exceeds max(total, start), the 100% line is printed at most once, and it has been printed once more than total - start - distance calls (at least one) were made; after it further calls change nothing.", "quantifier": "all totals, starts, print distances and numbers of calls", "why_tests_cant": "all histories", "anchors": ["semantic_codec/report/print_progress.py:TextProgressBar"]}
{"id": "C73", "title": "Highest depth ranks the originals among the candidates", "statement": "SolutionQuality.evaluate() only reorders candidate lists; highest_depth is the largest, over the non-ignored original instructions, of (rank of the first candidate printed like the original, candidates sorted by score) / (number of candidates), and it is at most 1 exactly when every such original is among its candidates.", "quantifier": "all programs, scores and original lists", "why_tests_cant": "all candidate orders, ties and duplicate texts", "anchors": ["semantic_codec/solution/solution_quality.py:SolutionQuality.evaluate"]}
{"id": "C74", "title": "Solution count and size stay available after evaluate()", "statement": "After a successful evaluate(), solution_count and solution_size return the same values as before it.", "quantifier": "all programs and original lists", "why_tests_cant": "depends on the order of method calls", "anchors": ["semantic_codec/solution/solution_quality.py:SolutionQuality.evaluate", "semantic_codec/solution/solution_quality.py:SolutionQuality.solution_size"]}
{"id": "C75", "title": "The constraint problem accepts the true program", "statement": "Assigning to every variable of the problem made by ProblemBuilder the original instruction satisfies every constraint added to the problem, with or without forward checking.", "quantifier": "all programs, candidate lists and original programs", "why_tests_cant": "all programs and metadata", "anchors": ["semantic_codec/solution/solution_builders.py:ProblemBuilder", "semantic_codec/solution/solution_builders.py:ExactFieldSumConstraint.__call__"]}
{"id": "C76", "title": "More frequent symbols never get longer code words", "statement": "In the code returned by encode(freq), a symbol with a greater weight never has a longer code word than one with a smaller weight.", "quantifier": "all frequency tables and pairs of symbols", "why_tests_cant": "all tables with ties", "anchors": ["semantic_codec/compressor/huffman.py:encode"]}
{"id": "C77", "title": "Register renaming for compression runs", "statement": "InstructionPartFrequencyChanger.change_registers() completes without raising on a program whose registers can be listed.", "quantifier": "all programs", "why_tests_cant": "all programs", "anchors": ["semantic_codec/compressor/huffman.py:InstructionPartFrequencyChanger._change_parts", "semantic_codec/architecture/instruction_modifier.py:InstructionModifier.modify_register"]}
{"id": "C78", "title": "Functions of the text listing partition its instructions", "statement": "For every file, TextDisassembleReader.read_functions succeeds exactly when read_instructions does (with the same error otherwise) and the instructions of its functions, one after the other, are the instructions of the file; those before the first function header belong to \"no_method\", those after a header and before the next one to the function named by that header line.", "quantifier": "all files", "why_tests_cant": "ranges over all texts, including malformed ones", "anchors": ["semantic_codec/architecture/disassembler_readers.py:TextDisassembleReader.read_functions", "semantic_codec/architecture/disassembler_readers.py:TextDisassembleReader.read_instructions"]}
{"id": "C79", "title": "Progress output is bounded by the print distance", "statement": "The percentages printed on the partial lines of a TextProgressBar are at least 0, below 100 and rise by at least the print distance, so k partial lines need (k - 1) * distance < 100, however long the loop is.", "quantifier": "all totals, starts, whole print distances and numbers of calls", "why_tests_cant": "all histories of arbitrary length", "anchors": ["semantic_codec/report/print_progress.py:TextProgressBar.progress"]}
{"id": "C80", "title": "A branch ends its basic block", "statement": "In the graph made by ARMControlFlowGraph.build(), no instruction follows a branch instruction in the same block.", "quantifier": "all instruction lists", "why_tests_cant": "all layouts of branches and conditions", "anchors": ["semantic_codec/static_analysis/cfg.py:ARMControlFlowGraph.build", "semantic_codec/static_analysis/cfg.py:ARMControlFlowGraph._branch_conditional"]}
{"id": "C81", "title": "Phi functions are placed on the iterated dominance frontier", "statement": "place_phi_nodes returns exactly the storages that some block reads before writing, each once, and gives a block a phi function for storage x exactly when x is one of these and the block lies on the iterated dominance frontier of the blocks that write x (not passing through END blocks). After SSAFormBuilder.build the ones left are those whose block does not write x before reading it.", "quantifier": "all graphs, roots and instruction contents", "why_tests_cant": "needs all graphs with loops and nested joins; unit tests look at two fixed programs", "anchors": ["semantic_codec/static_analysis/ssa.py:place_phi_nodes", "semantic_codec/static_analysis/ssa.py:SSAFormBuilder._remove_dead_phi"]}
{"id": "C82", "title": "Every SSA name that is used is defined", "statement": "In the finished SSA form every name in ssa_read of an instruction and every argument of a phi function is in ssa_written of some instruction or is the name of some remaining phi function, unless its index is 0: removing dead phi functions never leaves a dangling name.", "quantifier": "all graphs, roots and instruction contents for which build returns", "why_tests_cant": "the removal of phi functions looks at one block only; that nothing else uses the name is a fact about all graphs", "anchors": ["semantic_codec/static_analysis/ssa.py:SSAFormBuilder._remove_dead_phi", "semantic_codec/static_analysis/ssa.py:SSAFormBuilder._rename_node"]}
{"id": "C83", "title": "Phi functions have one argument per predecessor", "statement": "Every phi function of the finished form has exactly one argument for every reachable predecessor of its block, in the order in which the predecessors are renamed, and this argument is the index its variable has at the end of that predecessor.", "quantifier": "all graphs, roots and instruction contents for which build returns", "why_tests_cant": "all graphs, including loops and self-loops", "anchors": ["semantic_codec/static_analysis/ssa.py:SSAFormBuilder._rename_node"]}
{"id": "C84", "title": "The value dependency graph has exactly the dependencies", "statement": "The graph that SSAFormBuilder.build returns has an edge (a, b) exactly when some instruction reads a and writes b or some phi function b has argument a; its nodes are the ends of these edges and all names defined; no node or edge is added twice (so pygraph raises no AdditionError).", "quantifier": "all graphs, roots and instruction contents for which build returns", "why_tests_cant": "an absent or superfluous edge shows only on some graph", "anchors": ["semantic_codec/static_analysis/ssa.py:SSAFormBuilder._build_value_dependency_graph"]}
{"id": "C85", "title": "Counting rules score by the share of remaining occurrences", "statement": "After ConditionalCount.recover, InstructionCount.recover or RegisterCount.recover on an address, the score of every defined candidate there is the mean over its values (condition, opcode, registers) of (occurrences in the original, from the metadata, minus occurrences at resolved addresses) divided by (occurrences among the candidates of unresolved addresses), plus the branch bonus of the register rule; ignored candidates and all other scores stay. If a resolved address uses a value the metadata does not know, recover raises KeyError.", "quantifier": "all programs, metadata, passes and addresses", "why_tests_cant": "the score depends on all candidates of the whole program", "anchors": ["semantic_codec/metadata/probabilistic_rules/counting_rules.py:ConditionalCount", "semantic_codec/metadata/probabilistic_rules/counting_rules.py:InstructionCount", "semantic_codec/metadata/probabilistic_rules/counting_rules.py:RegisterCount"]}
{"id": "C86", "title": "Counting scores are probabilities", "statement": "With the metadata of an original program whose instructions are among the candidates, the counting rules never raise, every score is between 0 and 1 (plus the branch bonus), and the original of an unresolved address scores more than 0.", "quantifier": "all original programs, all candidate sets that contain it, all addresses", "why_tests_cant": "needs every combination of candidates", "anchors": ["semantic_codec/metadata/probabilistic_rules/counting_rules.py", "semantic_codec/metadata/metadata_collector.py:MetadataCollector.collect"]}
{"id": "C87", "title": "A rule answers whether it changed a score", "statement": "rule.recover(address) returns True exactly when some score differs afterwards.", "quantifier": "all five rules, programs, metadata, addresses", "why_tests_cant": "scores equal by accident, ignored candidates", "anchors": ["semantic_codec/metadata/probabilistic_rules/rules.py", "semantic_codec/metadata/probabilistic_rules/counting_rules.py"]}
{"id": "C88", "title": "Rules are idempotent", "statement": "Calling recover of any rule a second time at the same address changes no score (and the counting and control-flow rules answer False).", "quantifier": "all programs, metadata, passes, addresses, cache contents", "why_tests_cant": "all states", "anchors": ["semantic_codec/metadata/probabilistic_rules/rules.py", "semantic_codec/metadata/probabilistic_rules/counting_rules.py"]}
{"id": "C89", "title": "Control-flow score", "statement": "The control-flow rule gives each defined candidate a basic score plus bonuses for neighbours with the same condition and for jumps into the program, minus a malus for 'always' after a flag setter; a defined candidate never gets a negative score.", "quantifier": "all programs, probability models and addresses", "why_tests_cant": "all neighbourhoods", "anchors": ["semantic_codec/metadata/probabilistic_rules/rules.py:ControlFlowBehavior"]}
{"id": "C90", "title": "The distance rule leaves scores between 0 and 1", "statement": "RegisterReadDistance.recover raises for no address of the program, and each score it stores is between 0 and 1, 0 for ignored candidates.", "quantifier": "all programs, metadata and addresses", "why_tests_cant": "loop over distances, candidates and registers", "anchors": ["semantic_codec/metadata/probabilistic_rules/distance_rule.py:RegisterReadDistance"]}
{"id": "C91", "title": "A certain write at the recorded distance gives full credit", "statement": "If a candidate reads one register and the only candidate of the instruction at a recorded distance before it writes exactly that register, RegisterReadDistance gives the candidate the score 1.", "quantifier": "all programs, metadata, addresses", "why_tests_cant": "an off-by-one in the distance shows only in constructed programs", "anchors": ["semantic_codec/metadata/probabilistic_rules/distance_rule.py:RegisterReadDistance", "semantic_codec/metadata/metadata_collector.py:MetadataCollector.collect"]}
{"id": "C92", "title": "Recuperator.recover touches only scores and ignore marks", "statement": "Recuperator.recover keeps addresses, candidates and their order, leaves addresses with one candidate alone, only ever sets the ignore mark, and with one pass sets none; with one pass, and the original among the candidates, it does not raise.", "quantifier": "all programs, metadata, numbers of passes", "why_tests_cant": "all executions", "anchors": ["semantic_codec/metadata/recuperator.py:Recuperator.recover"]}
{"id": "C93", "title": "Recuperator.recover never discards the original", "statement": "After Recuperator.recover a candidate that is the original instruction is not marked ignored.", "quantifier": "all originals, candidate sets, numbers of passes", "why_tests_cant": "needs a candidate that some rule scores 0 or less", "anchors": ["semantic_codec/metadata/recuperator.py:Recuperator.recover"]}
{"id": "C94", "title": "The mock quality function accepts every third change", "statement": "MockQoSFunction.run answers True on exactly the 3rd, 6th, 9th ... call and False otherwise, so n calls accept floor(n/3) changes.", "quantifier": "all numbers of calls", "why_tests_cant": "tests make a few calls; the counter's reset must hold forever", "anchors": ["semantic_codec/distributed/qos_functions.py:MockQoSFunction.run"]}
{"id": "C95", "title": "The address orders visit each address once", "statement": "For x<64, y<32, z<4 the mappings hi_in_hi and low_in_hi are one to one, hi_in_hi covers 0..8191, and the loops print each address once whatever bit is lost first.", "quantifier": "all in-range triples, all addresses below 8192", "why_tests_cant": "injectivity over all pairs of triples", "anchors": ["address_sorting.py:hi_in_hi", "address_sorting.py:low_in_hi", "address_sorting.py:print_hi_first_start_loosing_hi_bit"]}
{"id": "C96", "title": "The report's totals add up", "statement": "Whenever print_report finishes, ERRORS is the number of positions with more than one candidate left, and LOSING + TIDE + RECOVERED = ERRORS.", "quantifier": "all originals, all recovered programs", "why_tests_cant": "all executions of a three-way branch over all programs", "anchors": ["recover_program.py:print_report"]}
{"id": "C97", "title": "The report's verdicts are right", "statement": "RECOVERED counts exactly the positions whose original scores more than every other candidate, LOSING those led by another candidate, TIDE those where the original shares the best score; the tie average is over the candidates sharing it.", "quantifier": "all originals, all recovered programs", "why_tests_cant": "candidates that print alike or share an encoding are rare", "anchors": ["recover_program.py:print_report"]}
{"id": "C98", "title": "The depth histogram is exact", "statement": "DEPTHS[d] is the number of contested positions with exactly d candidates ahead of the original (better, or equal and listed before it).", "quantifier": "all originals and recovered programs with distinct encodings", "why_tests_cant": "depends on sort stability and all orders", "anchors": ["recover_program.py:print_report"]}
{"id": "C99", "title": "The report always completes", "statement": "print_report returns (and restores standard output) for every program with a candidate list per original instruction.", "quantifier": "all originals, all recovered programs", "why_tests_cant": "tests report on programs with errors", "anchors": ["recover_program.py:print_report"]}
{"id": "C100", "title": "A report only reorders candidates", "statement": "print_report leaves every candidate in place at its position, ordered best first with equal scores in their previous order, and positions beyond the original program untouched; a second report finds them ordered.", "quantifier": "all originals, all recovered programs", "why_tests_cant": "all permutations", "anchors": ["recover_program.py:print_report"]}
{"id": "C101", "title": "BAD RULES counts the misleading rules", "statement": "For every rule, BAD RULES gives the number of positions led by another candidate whose score by that rule exceeds the original's; rules that never mislead are absent or 0.", "quantifier": "all originals, recovered programs, rules", "why_tests_cant": "needs all combinations of missing and present rule scores", "anchors": ["recover_program.py:print_report"]}
{"id": "C102", "title": "A recovery run leaves a complete set of files", "statement": "run_recovery writes corrupted_program.txt, initial_solution.sol, instructions1.txt .. instructionsN.txt and final_solution.sol in this order, final_solution.sol exactly if it returns; and it returns when recovery leaves one candidate per address.", "quantifier": "all programs, corruptors, recuperators", "why_tests_cant": "a fully recovered program is the case tests avoid", "anchors": ["recover_program.py:run_recovery"]}
{"id": "C103", "title": "DARMInstruction lists each register once", "statement": "registers_written() of a DARM instruction holds exactly the flags register (S bit, tst, teq, cmp, cmn), Rt, Rd and the register list (except for push), registers_read() exactly Rn, Rs, Rm, the flags register (conditional instructions) and the list of a push, registers_used() both; each register once in the written list.", "quantifier": "all answers of the disassembler", "why_tests_cant": "aliasing of the result list shows only when a register list comes with another written register", "anchors": ["semantic_codec/architecture/darm_instruction.py:DARMInstruction.registers_written", "semantic_codec/architecture/darm_instruction.py:DARMInstruction.registers_read", "semantic_codec/architecture/instruction.py:Instruction._get_register_list"]}
{"id": "C104", "title": "Memory accesses of DARM instructions are recognised", "statement": "A DARM instruction that stores (str, push) has STORE among storages_written(), one that loads (ldr, pop) among storages_read().", "quantifier": "all answers of the disassembler", "why_tests_cant": "depends on the printed form of every instruction", "anchors": ["semantic_codec/architecture/darm_instruction.py:DARMInstruction._writes_to_memory", "semantic_codec/architecture/darm_instruction.py:DARMInstruction._read_from_memory"]}
{"id": "C105", "title": "encodings_to_darm decodes", "statement": "encodings_to_darm(encodings) returns the defined instructions, in order (all of them with return_undefined).", "quantifier": "all lists of encodings", "why_tests_cant": "no test calls it", "anchors": ["semantic_codec/architecture/darm_instruction.py:DARMInstruction.encodings_to_darm"]}
{"id": "C106", "title": "Encodings given as text are read correctly", "statement": "An instruction built from a text whose characters, blanks aside, are hexadecimal digits (either case, any grouping) has the encoding those digits denote; for the eight digits of a word it is that word. A text with any other character than digits, signs, underscores and a prefix is refused with ValueError.", "quantifier": "all words, all ASCII texts", "why_tests_cant": "all groupings and texts", "anchors": ["semantic_codec/architecture/instruction.py:Instruction.__init__"]}
{"id": "C107", "title": "An encoding is a 32-bit word", "statement": "Every text accepted for an instruction gives an encoding in 0 .. 2^32-1.", "quantifier": "all ASCII texts", "why_tests_cant": "tests use well-formed texts", "anchors": ["semantic_codec/architecture/instruction.py:Instruction.__init__"]}
{"id": "C108", "title": "The received word is always a candidate", "statement": "After whole packets of an interleaved program are lost and the program is received (lost bits read as 0), the candidate list made for every damaged word from the predicted losses contains the received word; exactly which words are concerned is characterised.", "quantifier": "all programs of 32-bit words, all chunk sizes dividing 32, all packet orders, all sets of lost packets", "why_tests_cant": "quantifies over all programs, orders and loss patterns; the exception appears only for particular lost bits", "anchors": ["semantic_codec/corruption/corruption.py:corrupt_all_bits", "semantic_codec/corruption/corruptors.py:PacketCorruptor.corrupt", "semantic_codec/interleaver/interleaver2d.py:deinterleave"]}
{"id": "C109", "title": "Candidates are exactly the words that agree with what was received", "statement": "The candidates of every word after a packet loss are exactly the 32-bit words that agree with the sent word on every bit not carried by a lost packet.", "quantifier": "all programs, all chunk sizes dividing 32, all packet orders, all sets of lost packets", "why_tests_cant": "exactness over all words and losses; tests look at one small program", "anchors": ["semantic_codec/corruption/corruption.py:predict_corruption", "semantic_codec/corruption/corruption.py:corrupt_all_bits", "semantic_codec/corruption/corruptors.py:PacketCorruptor.corrupt"]}
{"id": "C110", "title": "store_packets stores every program", "statement": "The script store_packets writes both of its files, four bytes per instruction, for every non-empty program.", "quantifier": "all programs of 32-bit words", "why_tests_cant": "no test runs the script; failure depends on the number of instructions modulo 4", "anchors": ["store_packets.py:__main__", "semantic_codec/interleaver/interleaver2d.py:build_2d_interleave_sp"]}
{"id": "C111", "title": "store_packets clears the bits of the lost packets", "statement": "The first file of store_packets is the second (the program) with exactly the bits carried by the first fifth of the packets cleared.", "quantifier": "all programs the script stores, all bit positions", "why_tests_cant": "every bit position of every program", "anchors": ["store_packets.py:__main__", "semantic_codec/compressor/shiftcompressor.py:SwapCompressor.compress", "semantic_codec/corruption/corruption.py:predict_corruption"]}
{"id": "C112", "title": "recover_program's built-in loss works for every program", "statement": "With the packet loss set up by recover_program (one packet per 32 instructions, packet 3 lost) every non-empty program is corrupted, keeping its addresses and the original encodings among the candidates.", "quantifier": "all programs", "why_tests_cant": "depends on the program's length", "anchors": ["recover_program.py:__main__", "semantic_codec/corruption/corruptors.py:PacketCorruptor.__init__"]}
{"id": "C113", "title": "One recovery pass gives each rule's own score", "statement": "After one pass of Recuperator.recover every candidate of an address with several candidates carries, for each of the five rules, the score that rule gives it when run alone on the program as it was before: earlier rules and earlier addresses do not influence later scores.", "quantifier": "all programs, all metadata, all addresses with several candidates", "why_tests_cant": "independence of order over all programs; tests run single rules", "anchors": ["semantic_codec/metadata/recuperator.py:Recuperator._recover", "semantic_codec/metadata/probabilistic_rules/counting_rules.py:CountingRule.recover"]}
{"id": "C114", "title": "Control falls through from an instruction to the next", "statement": "In the graph of ARMControlFlowGraph.build, after a defined instruction that is no branch the next defined instruction y either follows it in the same block or the graph leads from the block that ends with it to a block that starts with y: by one edge when y has the same condition or is unconditional, over exactly one conditional node when y has another condition.", "quantifier": "all instruction lists, all pairs of consecutive defined instructions whose first is no branch", "why_tests_cant": "blocks are split and extended in every later step; tests check a handful of drawn graphs", "anchors": ["semantic_codec/static_analysis/cfg.py:ARMControlFlowGraph.build", "semantic_codec/static_analysis/cfg.py:ARMControlFlowGraph._branch_conditional", "semantic_codec/static_analysis/cfg.py:ARMControlFlowGraph._split_node"]}
{"id": "C115", "title": "Control continues after a call", "statement": "In the graph of ARMControlFlowGraph.build a branch with link leads to the instruction that follows it.", "quantifier": "all instruction lists, all defined branches with link that have a next defined instruction", "why_tests_cant": "depends on the target, the condition and the instructions around each call", "anchors": ["semantic_codec/static_analysis/cfg.py:ARMControlFlowGraph._branch_instruction", "semantic_codec/static_analysis/cfg.py:ARMControlFlowGraph.build"]}
{"id": "C116", "title": "Control can pass over conditional instructions", "statement": "In the graph of ARMControlFlowGraph.build any number of conditional instructions in a row can be passed over: from the instruction before them (no branch, another condition) the graph leads over conditional nodes only to the instruction after them. Once the conditional nodes are removed this is one edge.", "quantifier": "all instruction lists, all stretches of conditional instructions whose neighbours have another condition", "why_tests_cant": "stretches of any length, with splits by later jumps", "anchors": ["semantic_codec/static_analysis/cfg.py:ARMControlFlowGraph._branch_conditional", "semantic_codec/static_analysis/cfg.py:ARMControlFlowGraph.remove_conditionals"]}
{"id": "C117", "title": "Every edge of the control flow graph has a reason", "statement": "In the graph of ARMControlFlowGraph.build an edge exists only where control can pass: to the next instruction, over conditional instructions, from a branch to its target or to an unknown target, and back from a call out of the program. No edge leads past an unconditional branch, and from a conditional node nothing leads past an unconditional instruction.", "quantifier": "all instruction lists, all edges of the graph", "why_tests_cant": "needs every edge of every graph; a wrong extra edge only shows for particular orders of conditions, branches and later splits", "anchors": ["semantic_codec/static_analysis/cfg.py:ARMControlFlowGraph.build", "semantic_codec/static_analysis/cfg.py:ARMControlFlowGraph._branch_conditional", "semantic_codec/static_analysis/cfg.py:ARMControlFlowGraph._branch_instruction"]}
{"id": "C118", "title": "Every block of the control flow graph can be reached from the root", "statement": "In the graph of ARMControlFlowGraph.build every node can be reached from the root node.", "quantifier": "all instruction lists, all nodes of the graph", "why_tests_cant": "depends on every branch of the program and on what stands before it", "anchors": ["semantic_codec/static_analysis/cfg.py:ARMControlFlowGraph.build", "semantic_codec/static_analysis/cfg.py:ARMControlFlowGraph._split_node"]}
{"id": "C119", "title": "A graph can be built for the first instructions of a program", "statement": "ARMControlFlowGraph.build(count=n) builds the graph of the first n instructions; -1 stands for all of them.", "quantifier": "all instruction lists, all counts", "why_tests_cant": "needs every program and count; branches that cross the end of the part", "anchors": ["semantic_codec/static_analysis/cfg.py:ARMControlFlowGraph.build"]}
{"id": "C120", "title": "Calls are recognised", "statement": "is_branch_with_link of a branch is true exactly when the instruction saves a return address.", "quantifier": "all encodings of branches", "why_tests_cant": "2^32 encodings, several classes of branch instructions", "anchors": ["semantic_codec/architecture/instruction.py:Instruction.is_branch_with_link"]}
{"id": "C121", "title": "Control does not continue after a return", "statement": "In the control flow graph of decoded instructions the unknown target of a branch that returns from a function leads to the end only.", "quantifier": "all decoded programs, all return instructions", "why_tests_cant": "depends on the encoding of the return and on the instructions around it", "anchors": ["semantic_codec/architecture/instruction.py:Instruction.is_branch_with_link", "semantic_codec/static_analysis/cfg.py:ARMControlFlowGraph._branch_instruction"]}
{"id": "C122", "title": "Jumps of the graph go where the processor goes", "statement": "In the control flow graph of CAPSInstruction objects a branch leads to the instruction at the address the processor would continue at, whenever that is known from the word.", "quantifier": "all decoded programs, all branches with an immediate operand", "why_tests_cant": "all offsets, addresses and kinds of branches", "anchors": ["semantic_codec/architecture/capstone_instruction.py:CAPSInstruction.jumping_address", "semantic_codec/static_analysis/cfg.py:ARMControlFlowGraph._branch_instruction"]}
{"id": "C123", "title": "Indirect branches have no known target", "statement": "In the control flow graph of DARMInstruction objects only B and BL lead to a known instruction, the one at the encoded offset.", "quantifier": "all programs decoded with darm, all branches", "why_tests_cant": "a wrong target only shows when some instruction stands at the wrongly computed address", "anchors": ["semantic_codec/architecture/darm_instruction.py:DARMInstruction.jumping_address", "semantic_codec/architecture/darm_instruction.py:DARMInstruction.is_branch"]}
{"id": "C124", "title": "A graph can be built for every decoded program", "statement": "For every list of CAPSInstruction objects whose memory operands use ARM registers the construction of the control flow graph succeeds, and exactly the defined instructions are in a block, each in one.", "quantifier": "all lists of words and all answers of the decoder", "why_tests_cant": "all programs", "anchors": ["semantic_codec/architecture/capstone_instruction.py:CAPSInstruction.is_branch", "semantic_codec/static_analysis/cfg.py:ARMControlFlowGraph.build"]}
{"id": "C125", "title": "Branches are the instructions that write the program counter", "statement": "CAPSInstruction.is_branch is true exactly for branch instructions and for instructions that write the program counter; a store is no branch.", "quantifier": "all decoded instructions", "why_tests_cant": "all operand lists", "anchors": ["semantic_codec/architecture/capstone_instruction.py:CAPSInstruction.is_branch", "semantic_codec/architecture/capstone_instruction.py:CAPSInstruction.registers_written"]}
{"id": "C126", "title": "The SSA form of blocks in sequence is correct", "statement": "For a control flow graph whose blocks follow one another, where control may pass over some of them, SSAFormBuilder.build returns; whichever way control takes, every read names the last definition passed and every phi function has, for each predecessor, the last definition passed on the way from there.", "quantifier": "all such graphs, all instructions with storages in range, all ways through the graph", "why_tests_cant": "the claim of C68 is false in general; this delimits a family where it holds for every number of blocks and every way through them", "anchors": ["semantic_codec/static_analysis/ssa.py:SSAFormBuilder.build"]}
{"id": "C127", "title": "The graph of a program without branches", "statement": "For a program without defined branches ARMControlFlowGraph.build() followed by remove_conditionals() gives ROOT, the longest pieces of defined instructions with one condition in order, and END; control leads from a block exactly to the later blocks up to and including the next unconditional one, and from the last block to END.", "quantifier": "all programs without branches", "why_tests_cant": "all lengths and all patterns of conditions", "anchors": ["semantic_codec/static_analysis/cfg.py:ARMControlFlowGraph.build", "semantic_codec/static_analysis/cfg.py:ARMControlFlowGraph.remove_conditionals"]}
{"id": "C128", "title": "The SSA form of a program without branches is correct", "statement": "For a program without defined branches the chain build(), remove_conditionals(), SSAFormBuilder.build returns, and whichever conditional blocks are executed, every instruction reads the last definition made before it.", "quantifier": "all programs without branches, all storages read and written, all choices of executed blocks", "why_tests_cant": "all lengths, patterns of conditions, storages and executions", "anchors": ["semantic_codec/static_analysis/cfg.py:ARMControlFlowGraph.build", "semantic_codec/static_analysis/ssa.py:SSAFormBuilder.build"]}
{"id": "C129", "title": "A conditional instruction at the end can be passed over", "statement": "In the graph of a program whose last instruction is conditional there is a way from the root to the end that does not execute it.", "quantifier": "all programs", "why_tests_cant": "all programs and ways", "anchors": ["semantic_codec/static_analysis/cfg.py:ARMControlFlowGraph.build"]}
{"id": "C130", "title": "The dominators of every built graph can be computed", "statement": "build_dominator_tree returns for every graph made by ARMControlFlowGraph.build(), also after remove_conditionals().", "quantifier": "all programs", "why_tests_cant": "all programs; the failure needs an unreachable branch", "anchors": ["semantic_codec/static_analysis/cfg.py:ARMControlFlowGraph.build", "semantic_codec/static_analysis/dominators.py:build_dominator_tree"]}
{"id": "C131", "title": "The SSA form exists only for known storages", "statement": "If SSAFormBuilder.build() returns, every storage that an instruction in a block reachable from the root reads or writes is one of the 20 storages it keeps counters for; a single other storage makes it raise.", "quantifier": "all programs, graphs and roots", "why_tests_cant": "all programs and graphs; the failing storage can be anywhere", "anchors": ["semantic_codec/static_analysis/ssa.py:SSAFormBuilder._rename_vars", "semantic_codec/static_analysis/ssa.py:SSAFormBuilder._rename_node"]}
{"id": "C132", "title": "Decoded instructions without branches have an SSA form", "statement": "For every non-empty list of instructions decoded by capstone none of which is a branch, the control flow graph can be built, stripped of its conditional nodes and brought into SSA form, and every read is given the name of the last value written before it.", "quantifier": "all lists of decoded instructions", "why_tests_cant": "all instruction lists, with every choice of conditional instructions executed", "anchors": ["semantic_codec/static_analysis/ssa.py:SSAFormBuilder.build", "semantic_codec/static_analysis/cfg.py:ARMControlFlowGraph.build", "semantic_codec/architecture/capstone_instruction.py:CAPSInstruction.registers_used"]}
{"id": "C133", "title": "Neighbouring cells of the Blaum matrix belong to different packets", "statement": "In the matrix returned by build_2d_interleave_matrix_blaum for at least three packets, two cells next to each other in a row or in a column belong to different packets; the cell in column x of row y belongs to packet |x - y*b| mod m, with m the rounded number of packets and b the integer nearest to the square root of 2m - 1.", "quantifier": "all sizes and all cells", "why_tests_cant": "all sizes; the failing cells depend on the parity of b", "anchors": ["semantic_codec/interleaver/interleaver2d.py:build_2d_interleave_matrix_blaum"]}
{"id": "C134", "title": "The control flow graph sees decoded instructions as they are", "statement": "For every list of decoded instructions the graph construction sees, in order, one entry per instruction with its address, whether it is undefined, whether it branches, whether it is a call (a branch with bit 24 set), its condition and its jump target: with capstone the first immediate of a branch, with darm the computed target.", "quantifier": "all lists of instructions of either disassembler", "why_tests_cant": "all encodings and operand lists", "anchors": ["semantic_codec/architecture/instruction.py:Instruction.is_branch_with_link", "semantic_codec/architecture/capstone_instruction.py:CAPSInstruction.jumping_address", "semantic_codec/architecture/darm_instruction.py:DARMInstruction.jumping_address"]}
{"id": "C135", "title": "The value dependency graph shows which values may be read", "statement": "For code without branches, going back from the name an instruction reads for a storage through phi functions in the value dependency graph leads to the names written by exactly those earlier instructions whose value it may read: instructions such that whatever else writes the storage in between is conditional and is executed together with neither of the two. It leads to the initial name exactly if every earlier write of the storage can be passed over. The name an instruction writes depends on exactly the names it reads.", "quantifier": "all lists of instructions without branches, all storages, all combinations of conditions", "why_tests_cant": "all programs and all ways through their conditional instructions", "anchors": ["semantic_codec/static_analysis/ssa.py:SSAFormBuilder", "semantic_codec/static_analysis/cfg.py:ARMControlFlowGraph.build"]}
{"id": "C136", "title": "The first solution file of a run with packet loss holds what the loss leaves open", "statement": "The solution file a recovery run writes before recovering anything, read back, gives the original program exactly, and at every address, in ascending order, exactly the encodings not above the original that differ from it only in bits predicted to be wrong, ending with the original itself. The file is written whenever some bit of the program is predicted to be wrong; otherwise the report before it divides by zero and nothing is written.", "quantifier": "all programs of 32-bit words at distinct addresses, all packet orders, packet sizes up to 32 bits, all losses, all data sizes", "why_tests_cant": "all programs and losses; three modules and a file format composed", "anchors": ["recover_program.py:run_recovery", "recover_program.py:print_report", "semantic_codec/corruption/corruptors.py:PacketCorruptor.corrupt", "semantic_codec/solution/solution_io.py:SolutionWriter.write_binary", "semantic_codec/solution/solution_io.py:SolutionReader.read"]}
{"id": "C137", "title": "A recovery run that completes has not lost the true program", "statement": "If a recovery run completes, the final solution file, read back, gives the original program exactly: every address holds its true instruction. The candidates listed for an address are exactly those ranked before the true instruction by the scores after constraining (equal scores in their earlier order), then the true instruction. After packet loss all of them differ from the true instruction in bits predicted to be wrong only, and the initial solution file of the same run is the one described by C136. This holds whatever the recuperator and the constraint phase do, as long as they add no candidates and keep the addresses.", "quantifier": "all programs with distinct addresses, all corruptions, all recuperators, score functions and constraint phases that add no candidates, any number of passes", "why_tests_cant": "all programs, losses and recovery strategies; a whole run composed of five modules", "anchors": ["recover_program.py:run_recovery", "recover_program.py:print_report", "recover_program.py:remove_bad_candidates_at_addr", "semantic_codec/solution/solution_io.py:SolutionWriter.write_binary", "semantic_codec/solution/solution_io.py:SolutionReader.read", "semantic_codec/corruption/corruptors.py:PacketCorruptor.corrupt"]}
{"id": "C138", "title": "Which candidates the passes of a recovery leave, and when the true program survives", "statement": "Recovery with the true program among the candidates is a sieve. Call a candidate sure if its condition, opcode and registers all occur in the true program and its condition, its opcode or all its registers are found only at addresses where the true instruction has them too. A pass (scoring, then removal) keeps at an address with a sure candidate exactly the sure ones, in order, and at any other address exactly the defined candidates with nothing unknown to the true program, except pushes and pops that are no branches; it reports stability exactly if nothing fell through. A run that ends with the true program still included is exactly that many rounds of the sieve and ends in a state where nothing more falls through. If every true instruction is sure before the first pass, the run takes at most two passes, never loses a true instruction, and leaves exactly the candidates that were sure at the start.", "quantifier": "all programs, candidate lists, function tables and model constants in (0, 1]; all earlier scores; any number of passes", "why_tests_cant": "the claim is about every candidate of every program over an unbounded number of passes, and about which sets are fixpoints", "anchors": ["recover_program.py:remove_bad_candidates_at_addr", "recover_program.py:run_recovery", "semantic_codec/metadata/recuperator.py:probabilistic_rules_remove_step"]}
{"id": "C139", "title": "What the final solution file of a run with the probabilistic recuperator lists", "statement": "A recovery run with the probabilistic recuperator that completes writes a final solution file that gives the true program when read back and lists beside each true instruction only candidates that survived all rounds of the sieve of C138, counted from the corrupted program. The program the passes stopped at contains the whole true program and is at rest: nothing more falls through. If every true instruction was sure in the corrupted program, all candidates in the file were. Reports reorder candidates but do not change which survive.", "quantifier": "all programs, candidate sets, instruction decoders, model constants, numbers of passes; all constraint phases and score changes that add no candidates", "why_tests_cant": "a run composed of reports, passes, removal, constraint phase and writer over all programs and corruptions", "anchors": ["recover_program.py:run_recovery", "recover_program.py:print_report", "recover_program.py:remove_bad_candidates_at_addr", "semantic_codec/metadata/recuperator.py:ProbabilisticRecuperator.recover", "semantic_codec/metadata/recuperator.py:probabilistic_rules_remove_step", "semantic_codec/solution/solution_io.py:SolutionWriter.write_binary", "semantic_codec/solution/solution_io.py:SolutionReader.read"]}
{"id": "C140", "title": "When a recovery run writes its final solution", "statement": "Once the recovery loop of a run has stopped with a program that still contains every true instruction, the rest of the run has exactly two outcomes. If no instruction has more than one candidate left, or the constraint phase (which cannot fail, adds no candidate and keeps every true instruction) leaves none with more than one, the run ends in a ZeroDivisionError and there is no final solution file. If some choice is left after the constraint phase, the final solution file is written.", "quantifier": "all programs, candidate sets, recuperators, score functions; all decoders for which the printed text of a candidate determines its fields; true instructions not marked as ignored; addresses, encodings and counts fitting 32 bits", "why_tests_cant": "a run composed of reports, loop, constraint phase and writer over all programs and candidate sets", "anchors": ["recover_program.py:run_recovery", "recover_program.py:print_report", "semantic_codec/solution/solution_builders.py:ForwardConstraintSolutionEnumerator", "semantic_codec/solution/solution_io.py:SolutionWriter.write_binary"]}
{"id": "C141", "title": "The depths printed by evaluate are the largest ranks", "statement": "SolutionQuality.evaluate prints the largest rank of an original among its sorted candidates, as a share of their number, and the address where it is reached first; and, for each number of candidates that occurs, the largest rank among the originals with that many candidates and the address where it is first reached. Numbers of candidates that do not occur are not listed. With no original to consider it prints depth 0 at address 0. The depth printed is the one highest_depth answers, and printing fails exactly when that does.", "quantifier": "all programs, candidate sets, scores and originals, with or without ignored instructions", "why_tests_cant": "quantifies over all programs and score ties", "anchors": ["semantic_codec/solution/solution_quality.py:SolutionQuality.evaluate", "semantic_codec/solution/solution_quality.py:SolutionQuality.highest_depth"]}
{"id": "C142", "title": "When a pass of the recovery completes", "statement": "On a non-empty program whose true instructions are all among the candidates, a pass of the probabilistic recuperator completes exactly when no candidate is stuck. A candidate (not ignored) is stuck if it is a push at the start of a known function whose last address has no candidates, or in which some address below the last has none while above it there is not both a pop and, at least two words above it, a branch; or if it is a branch with a known target, the target is not below the lowest address of the program, and no known function starts at or before the branch. The only exception then is KeyError. In particular, with the table of functions built from functions whose instructions lie one word after the other, and candidates at exactly their addresses, a pass always completes.", "quantifier": "all programs, candidate sets, models with constants in range and tables of functions", "why_tests_cant": "quantifies over all programs, function tables and gaps", "anchors": ["semantic_codec/metadata/recuperator.py:ProbabilisticRecuperator._recover", "semantic_codec/metadata/recuperator.py:ProbabilisticRecuperator._compute_push_pop", "semantic_codec/metadata/recuperator.py:ProbabilisticRecuperator._compute_branch_address", "semantic_codec/metadata/probabilistic_rules/rules.py:from_functions_to_list_and_addr"]}
{"id": "C143", "title": "How a whole run ends when the true instructions are without doubt", "statement": "Take a recovery run on functions whose instructions lie one word after the other, with every true instruction among the candidates and certain from the counts (as in C138). The run then ends in one of two ways. If some address still has several candidates that are as certain as the true one, and the constraint phase leaves some address with several, both solution files are written. Otherwise the run ends in ZeroDivisionError: in the first report if nothing is to be decided at the start, in a later report as soon as nothing is left to decide. What reaches the constraint phase is exactly, at each address, the candidates that were certain at the start. No other exception is possible, and two passes are enough.", "quantifier": "all programs, candidate sets, decoders, printed texts and models with constants in range", "why_tests_cant": "quantifies over all programs and decoders; a test shows one outcome", "anchors": ["recover_program.py:run_recovery", "recover_program.py:print_report", "recover_program.py:remove_bad_candidates_at_addr", "semantic_codec/metadata/recuperator.py:ProbabilisticRecuperator.recover", "semantic_codec/solution/solution_builders.py:ForwardConstraintSolutionEnumerator"]}
{"id": "C144", "title": "The storages and flags of a DARM instruction do not depend on earlier questions", "statement": "storages_written(), storages_read() and storages_used() of a defined DARM instruction always answer, and hold exactly the registers written and read (as in C103), memory when the printed text shows it, and the program counter when the instruction is a branch; a used list that would be empty holds the one placeholder storage instead. modifies_flags() is true exactly when the instruction writes the flags register. All this whatever was asked of the same object before, in any order and number. An undefined instruction answers every one of these questions with AttributeError.", "quantifier": "all answers of the disassembler and all sequences of earlier queries", "why_tests_cant": "the answers are cached and built from shared lists; the number of query sequences is unbounded", "anchors": ["semantic_codec/architecture/darm_instruction.py:DARMInstruction.modifies_flags", "semantic_codec/architecture/instruction.py:Instruction.storages_written", "semantic_codec/architecture/instruction.py:Instruction.storages_read", "semantic_codec/architecture/instruction.py:Instruction.storages_used"]}
{"id": "C145", "title": "Pushes and pops that belong together are recognised", "statement": "A pass of the recovery records for every push and pop how likely it is. A push at the start of a function is given the probability for equal registers when the function ends in a pop of the same registers (lr popped into pc, the stack pointer aside), the probability for a pop at the end when it ends in any pop, the probability for a pop in the middle when some pop is followed by a branch, and otherwise one over the number of candidates; the greatest of what applies. A pop is treated likewise, against the push at the start of its function. Other instructions are given none.", "quantifier": "all programs, candidate sets, function tables and models", "why_tests_cant": "quantifies over all candidate sets; the walk over the function accumulates counts", "anchors": ["semantic_codec/metadata/recuperator.py:ProbabilisticRecuperator._compute_push_pop", "semantic_codec/metadata/recuperator.py:ProbabilisticRecuperator._op_prob_and_check_equal_registers"]}
{"id": "C146", "title": "Values read were written where the original wrote them", "statement": "A pass of the recovery records for every candidate that is neither a branch nor a push or pop, except at the lowest address, how likely the storages it reads have been written before. For each storage it looks at the addresses lying between the least and the greatest distance the collector saw between a write and a read (the address just before if none was seen), and multiplies the shares of the candidates there that do not write the storage; the value recorded is one less the least of these products over the storages read.", "quantifier": "all programs, candidate sets, collected distances and models", "why_tests_cant": "quantifies over all candidate sets and distances; the product over a window of addresses is cut short under conditions that rarely show in samples", "anchors": ["semantic_codec/metadata/recuperator.py:ProbabilisticRecuperator._compute_register_distance", "semantic_codec/metadata/metadata_collector.py:MetadataCollector.collect"]}
{"id": "C147", "title": "A place in the control flow is judged by the neighbours", "statement": "A pass of the recovery records for every candidate, except at the lowest address, how well it sits between the candidates before and behind it. A conditional candidate is judged by the share of the candidates before it that have its condition or set the flags and the share of those behind that have its condition; an unconditional one by the share before it that sets the flags, which speaks against it, or that has its condition. Each combination has its own weight in the model; only candidates that are not ignored count; when nothing speaks for the candidate the least probability is recorded. In particular a conditional candidate right behind a comparison is given at least the weight of a branch behind a flag setting instruction.", "quantifier": "all programs, candidate sets and models", "why_tests_cant": "quantifies over all candidate sets before and behind; the weights combine differently in eight cases", "anchors": ["semantic_codec/metadata/recuperator.py:ProbabilisticRecuperator._compute_proper_cfg", "semantic_codec/architecture/capstone_instruction.py:CAPSInstruction.registers_written"]}
{"id": "C148", "title": "Conditions, opcodes and storages are rated by how often the original has them", "statement": "After any originals have been collected, a pass of the recovery records for every candidate that is not ignored, as the value of its condition, the number of instructions in the originals with that condition divided by the number of addresses with a candidate that has it and is not ignored; as the value of its opcode the same for the opcode; and, unless it is a branch, push or pop, as the value of its storages the least of 1 and, over the storages it uses, the number of their occurrences in the originals divided by the number of addresses with such a candidate using them. What the originals never have is rated 0.", "quantifier": "all lists of originals collected, all programs and candidate sets, all models", "why_tests_cant": "quantifies over all originals and candidate sets; the values come from six dictionaries with missing keys treated as zero", "anchors": ["semantic_codec/metadata/recuperator.py:ProbabilisticRecuperator._compute_conditional", "semantic_codec/metadata/recuperator.py:ProbabilisticRecuperator._compute_opcode", "semantic_codec/metadata/recuperator.py:ProbabilisticRecuperator._compute_registers", "semantic_codec/metadata/metadata_collector.py:MetadataCollector.collect", "semantic_codec/metadata/metadata_collector.py:CorruptedProgramMetadataCollector.collect"]}
{"id": "C149", "title": "The metrics of a program", "statement": "collect_and_print lists every encoding of the instructions that are not ignored exactly once, the largest first, each with its distance from the one before (0 for the first), so that the distances add up to the difference between the largest and the smallest encoding. The bars it draws are, for the storages 0 to 17, the conditions 0 to 14 and the opcodes 0 to 199, how often each occurs in the instructions that are not ignored.", "quantifier": "all lists of instructions", "why_tests_cant": "all programs; the distances are taken between neighbours of a list that is deduplicated and sorted first", "anchors": ["collect_metrics.py:collect_and_print", "semantic_codec/metadata/metadata_collector.py:MetadataCollector.collect"]}
{"id": "C150", "title": "The order of the candidates and reports in between do not matter", "statement": "A recovery pass gives the same candidates the same scores however addresses and candidates are listed, and fails for one listing exactly if it fails for the other. Removing bad candidates leaves the same candidates. So the whole recovery loop does the same number of passes and leaves the same candidates with the same scores when the candidates of every address are reordered after every pass, as the reports do.", "quantifier": "all programs, all models, all metadata, all function tables, all reorderings before the first and after every pass; ignored candidates without scores", "why_tests_cant": "all orders of all candidate lists; the code scans lists and dictionaries in their order, and removes from a list while walking over it", "anchors": ["semantic_codec/metadata/recuperator.py:ProbabilisticRecuperator._recover", "recover_program.py:run_recovery", "recover_program.py:remove_bad_candidates_at_addr", "recover_program.py:print_report"]}
{"id": "C151", "title": "A recovery remembers nothing but the candidates", "statement": "A pass over a program that was just scored changes nothing. At every stage of a recovery that started without scores, the next pass gives exactly what a pass over the same candidates without any scores gives. So a recovery that ended can be repeated, from its result or from its result with all scores dropped: it ends after one pass with that same result.", "quantifier": "all programs, models, metadata and function tables, all stages of a recovery", "why_tests_cant": "all earlier passes; scores are kept in dictionaries that later passes overwrite only in part", "anchors": ["semantic_codec/metadata/recuperator.py:ProbabilisticRecuperator._recover", "recover_program.py:run_recovery"]}
{"id": "C152", "title": "Graphs exported to Dot show every node and every edge once", "statement": "Writing a graph of blocks of a control flow graph (the graph itself, the graph without conditional nodes, a dominator tree) or a value dependency graph in the Dot language never fails. Different nodes get different names, and every edge of the graph, and no other, is written exactly once.", "quantifier": "all programs, all texts of instructions, all graphs on the blocks of a built graph, all value dependency graphs", "why_tests_cant": "edges are skipped when the text from-to was seen before, and the names contain the separator; whether two edges collide depends on the texts of the instructions", "anchors": ["libs/dot/dotio.py:write", "semantic_codec/static_analysis/cfg.py:CFGBlock.__str__"]}
{"id": "C153", "title": "The improver script prints optimal sizes and never a larger one afterwards", "statement": "On a program whose registers can be listed, huffman_improver prints the fewest bits in which the registers, the opcodes and the conditions of the program can be written with a prefix code, changes the registers, and prints a register size that is not larger than the first.", "quantifier": "all programs using some register", "why_tests_cant": "all programs, and all competing prefix codes", "anchors": ["huffman_improver.py", "semantic_codec/compressor/huffman.py:InstructionPartFrequencyCounter.count", "semantic_codec/compressor/huffman.py:InstructionPartFrequencyChanger.change_registers"]}
{"id": "C154", "title": "The comparison script reports every difference but the first", "statement": "For a results file whose last line about each file tells whether its result was equal, comparefiles reports, for every file marked equal and no other, every line that differs from the line of the same number of the first file listed, except the first such line, in order.", "quantifier": "all results files, all directories of files", "why_tests_cant": "depends on the names, the lengths and the contents of all files", "anchors": ["comparefiles.py"]}
{"id": "C155", "title": "Every branch out of the program has its own unknown target", "statement": "The control flow graph has exactly one unknown node for every branch whose target is not known or is no instruction of the program, and no other unknown nodes.", "quantifier": "all instruction lists", "why_tests_cant": "all combinations of branches and conditions; blocks are split later", "anchors": ["semantic_codec/static_analysis/cfg.py:ARMControlFlowGraph._branch_instruction", "semantic_codec/architecture/instruction.py:Instruction.branch_to"]}
{"id": "C156", "title": "A burst of lost packets damages an instruction at most once", "statement": "With a packet count that is one, two or three times a power of four, the chunks of one instruction travel in packets whose numbers are far apart: for 4^m packets per matrix and 2^k chunks per instruction (k at most m) they differ by a multiple of 2*4^(m-k). So when all lost packets lie in one run of at most 2*4^(m-k) consecutive packets, the receiver gets every instruction with at most one damaged chunk and reports at most one error for it; a longer run of L packets hits an instruction at most once for every 2*4^(m-k) packets begun.", "quantifier": "all m, k, packet counts of the stated form, data of whole rounds, positions and lengths of the burst", "why_tests_cant": "all sizes and all bursts; the tests try single loss patterns on sixteen packets", "anchors": ["semantic_codec/interleaver/interleaver2d.py:build_2d_interleave_sp", "semantic_codec/interleaver/interleaver2d.py:interleave", "semantic_codec/interleaver/interleaver2d.py:deinterleave"]}
{"id": "C157", "title": "A burst leaves few candidates for every instruction", "statement": "When the packets lost by the corruptor lie in one run of at most 2*4^(m-k) consecutive packets (q*4^m packets, 2^k chunks of w bits per instruction), every instruction gets at most 2^(w+1) candidates, repetitions counted, and its true encoding is one of them.", "quantifier": "all m, k, q from 1 to 3, programs, data sizes and sets of lost packets in such a run", "why_tests_cant": "all sizes and loss patterns; the counts depend on where chunks meet word ends", "anchors": ["semantic_codec/corruption/corruptors.py:PacketCorruptor.corrupt", "semantic_codec/interleaver/interleaver2d.py:build_2d_interleave_sp"]}
{"id": "C158", "title": "Recovery with several passes completes", "statement": "Recuperator.recover with any number of passes returns when the original program is among the candidates and the metadata is its own.", "quantifier": "all numbers of passes, programs, metadata", "why_tests_cant": "a pass may discard the original and leave, much later, a candidate the metadata does not know; one run shows one sequence of discards", "anchors": ["semantic_codec/metadata/recuperator.py:Recuperator.recover", "semantic_codec/metadata/probabilistic_rules/counting_rules.py:CountingRule._compute_remaining_candidate_probability"]}
{"id": "C159", "title": "A damaged save file is never loaded as a smaller program", "statement": "load_corrupted_program_from_json raises ValueError for a file written by save_corrupted_program_to_json of which any part at the end is missing, and for one followed by anything but white space; it never returns part of the program.", "quantifier": "all programs, all cut positions, all texts behind", "why_tests_cant": "the file can be cut at any position and anything can follow; whether some prefix happens to be a complete value depends on the contents", "anchors": ["semantic_codec/corruption/corruption.py:save_corrupted_program_to_json", "semantic_codec/corruption/corruption.py:load_corrupted_program_from_json"]}
{"id": "C160", "title": "Reading and writing a solution file changes nothing", "statement": "Whatever SolutionWriter.write_binary wrote, reading it with SolutionReader.read and writing the result again gives the same bytes.", "quantifier": "all originals and programs", "why_tests_cant": "the writer drops candidates behind the original and the reader makes up the original from the last one; that the two always agree depends on every candidate list", "anchors": ["semantic_codec/solution/solution_io.py:SolutionReader.read", "semantic_codec/solution/solution_io.py:SolutionWriter.write_binary"]}
{"id": "C161", "title": "A cut listing is not read as another program", "statement": "TextDisassembleReader.read_instructions on a listing of which the end is missing returns only instructions of the listing, or raises.", "quantifier": "all listings, all cut positions", "why_tests_cant": "the cut can be at any character of any line", "anchors": ["semantic_codec/architecture/disassembler_readers.py:TextDisassembleReader.read_instructions", "semantic_codec/architecture/instruction.py:Instruction.reverse_endianess"]}
{"id": "C162", "title": "The order of the candidates does not matter to the rules", "statement": "Recuperator.recover with one pass gives the same candidate the same five scores however addresses and candidates are listed, and does not raise for either listing.", "quantifier": "all original programs, all programs with the original instruction among the candidates of every address, all reorderings of addresses and of the candidates of each address", "why_tests_cant": "all orders of all candidate lists; the rules look only at the first candidate of some lists and keep the last of equal values in dictionaries", "anchors": ["semantic_codec/metadata/recuperator.py:Recuperator._recover", "semantic_codec/metadata/probabilistic_rules/counting_rules.py:CountingRule.recover"]}
{"id": "C163", "title": "A cut ELF listing is not read as another program", "statement": "ElfioTextDisassembleReader.read on a listing of which the end is missing returns only instructions of the listing, or raises.", "quantifier": "all listings (function table and code sections), all cut positions", "why_tests_cant": "the cut can be at any character of any line", "anchors": ["semantic_codec/architecture/disassembler_readers.py:ElfioTextDisassembleReader.read"]}
{"id": "C164", "title": "Every readable solution file can be written again", "statement": "Whenever SolutionReader.read accepts a file, write_binary accepts the originals and the program it returned, and reading the new file gives the same originals in the same order and, at every address, the candidates up to and including the first that equals the original.", "quantifier": "all files, also damaged or hand-made ones: repeated addresses, empty entries, repeated candidates, bytes after the end", "why_tests_cant": "all byte sequences the reader accepts, not only those the writer produces", "anchors": ["semantic_codec/solution/solution_io.py:SolutionReader.read", "semantic_codec/solution/solution_io.py:SolutionWriter.write_binary"]}
{"id": "C165", "title": "Losing more packets keeps every candidate", "statement": "When PacketCorruptor.corrupt is given further lost packets, every candidate it makes without them is made with them, at every address. Listing the same lost packets in another order gives the same candidates.", "quantifier": "all packet orders, chunk sizes 1 to 32, data sizes, programs with one instruction per address, and pairs of sets of lost packets of which one contains the other", "why_tests_cant": "pairs of loss sets for all orders and sizes; the effect needs a last round that only some packets take part in", "anchors": ["semantic_codec/corruption/corruptors.py:PacketCorruptor.corrupt", "semantic_codec/corruption/corruption.py:predict_corruption"]}
{"id": "C166", "title": "Candidates ruled out do not influence the others", "statement": "A pass of the probabilistic recovery gives the candidates still in play the same scores whether candidates marked as ignored are still listed or have been taken from the lists; it fails in one case exactly when it fails in the other.", "quantifier": "all candidate programs with distinct addresses, ignore marks, collected metadata, function tables and models whose constants are probabilities", "why_tests_cant": "relates two runs for every program and every set of ignored candidates; each rule counts its neighbours in its own way and only one branch of one rule counts the ignored ones", "anchors": ["semantic_codec/metadata/recuperator.py:ProbabilisticRecuperator._recover", "semantic_codec/metadata/recuperator.py:ProbabilisticRecuperator._compute_proper_cfg", "semantic_codec/metadata/recuperator.py:ProbabilisticRecuperator._compute_push_pop"]}
{"id": "C167", "title": "Candidates ruled out do not influence the scores of the rules", "statement": "A pass of Recuperator.recover gives the candidates still in play the same scores of every rule whether candidates marked as ignored are still listed or have been taken from the lists.", "quantifier": "all original programs, candidate programs that contain them, and ignore marks that spare the original", "why_tests_cant": "relates two runs for all programs and all sets of ignored candidates; the outcome depends on where in a list an ignored candidate stands", "anchors": ["semantic_codec/metadata/recuperator.py:Recuperator._recover", "semantic_codec/metadata/probabilistic_rules/counting_rules.py", "semantic_codec/metadata/probabilistic_rules/rules.py", "semantic_codec/metadata/probabilistic_rules/distance_rule.py"]}
{"id": "C168", "title": "The Huffman size depends on the counts only, and concentrating symbols never costs bits", "statement": "Counting the parts of a program and asking for the Huffman size gives the same number for two programs whose parts differ only in order or in a one to one renaming; it never decreases when occurrences are added; and it never increases when occurrences of one symbol are replaced by another symbol that is at least as frequent (the idea on which the register changer rests).", "quantifier": "all pairs of programs whose parts can be read, renamings, symbols and sets of replaced occurrences", "why_tests_cant": "relates two runs for all texts; the tree built, the code words and their order change with every count, only the optimum does not", "anchors": ["semantic_codec/compressor/huffman.py:encode", "semantic_codec/compressor/huffman.py:huffman_size", "semantic_codec/compressor/huffman.py:InstructionPartFrequencyCounter.freq_info"]}
{"id": "C169", "title": "More candidates never mean fewer solutions", "statement": "If no address has fewer candidates than before, SolutionQuality.solution_count and solution_size are not smaller than before, and the size is the same only if no address has more.", "quantifier": "all programs with at least one candidate per address, and all ways to add candidates", "why_tests_cant": "relates the measures of two programs for all sizes; the count drops only if several addresses share a number of candidates", "anchors": ["semantic_codec/solution/solution_quality.py:SolutionQuality.solution_count", "semantic_codec/solution/solution_quality.py:SolutionQuality.solution_size", "semantic_codec/solution/solution_quality.py:SolutionQuality._count_solutions"]}
{"id": "C170", "title": "A basic block begins exactly where control can enter", "statement": "In the graph that ARMControlFlowGraph.build makes, two consecutive defined instructions are in one block exactly if the first does not branch, both have the same condition and no branch leads to the second.", "quantifier": "all programs and all pairs of consecutive defined instructions", "why_tests_cant": "whether an instruction is entered depends on branches anywhere later in the program, and blocks built early are split again", "anchors": ["semantic_codec/static_analysis/cfg.py:ARMControlFlowGraph.build", "semantic_codec/static_analysis/cfg.py:ARMControlFlowGraph._branch_instruction", "semantic_codec/static_analysis/cfg.py:ARMControlFlowGraph._split_node"]}
{"id": "C171", "title": "The probabilities of instructions near an address", "statement": "ProbabilisticRecuperator._instruction_range_probs(addr, a, b, f) gives, in order, a probability for each address within a and b instructions of addr (negative: before it) that has a candidate in play with a positive score and property f; _prob_of_a(val, addr) is the share of the candidates in play at addr that are val.", "quantifier": "all programs, scores, addresses, ranges and predicates", "why_tests_cant": "ranges over all programs and score functions; direction and bounds of the range and the division only show together", "anchors": ["semantic_codec/metadata/recuperator.py:ProbabilisticRecuperator._instruction_range_probs", "semantic_codec/metadata/recuperator.py:ProbabilisticRecuperator._prob_of_a"]}
{"id": "C172", "title": "How large the search left by a recovery run is", "statement": "Running the recovery passes with the probabilistic recuperator never makes SolutionQuality report a larger search: neither solution_size nor solution_count grows, and the size stays the same only if no address with several candidates lost one.", "quantifier": "all models, collectors, function tables and programs on which the run returns", "why_tests_cant": "ranges over all programs and runs; the number of solutions mostly falls and the cases where it grows need particular bins", "anchors": ["recover_program.py:run_recovery", "semantic_codec/metadata/recuperator.py:ProbabilisticRecuperator", "semantic_codec/solution/solution_quality.py:SolutionQuality"]}
{"id": "C173", "title": "A graph written in Dot and read back is the same graph", "statement": "For every graph or digraph G, read(write(G, weighted=True)) of dotio has the nodes and edges of G, each once, with their labels and weights; without weights it has the nodes, edges and labels.", "quantifier": "all graphs, directed or not, all names, labels and weights, and every way pydot may respell names", "why_tests_cant": "edges are skipped by the text of their ends, so whether one is lost depends on the names of all other edges; undirected edges are listed twice", "anchors": ["libs/dot/dotio.py:write", "libs/dot/dotio.py:read"]}
{"id": "C174", "title": "A hypergraph written in Dot and read back is the same hypergraph", "statement": "For every hypergraph H, read(write(H)) and read_hypergraph(write_hypergraph(H)) of dotio give back the nodes, hyperedges and links of H.", "quantifier": "all hypergraphs, names, and every way pydot may respell names", "why_tests_cant": "which end of a link is the node is decided by the names of all nodes; needs all hypergraphs", "anchors": ["libs/dot/dotio.py:write_hypergraph", "libs/dot/dotio.py:read_hypergraph", "libs/dot/dotio.py:read"]}
{"id": "C175", "title": "The Huffman size is within one bit per symbol of the entropy", "statement": "For every table of counts with at least one occurrence, huffman_size is not below the entropy of the counts and exceeds it by at most one bit per occurrence, by less if every listed symbol occurs. For every program, the size computed for its registers, opcodes or conditions lies between the entropy of these parts and less than one bit per part above it. No prefix code is below the entropy.", "quantifier": "all tables of non-negative counts, all prefix codes, all programs whose parts can be read", "why_tests_cant": "a bound on a real number for all distributions; needs Kraft's and Gibbs' inequalities, not samples", "anchors": ["semantic_codec/compressor/huffman.py:encode", "semantic_codec/compressor/huffman.py:huffman_size", "semantic_codec/compressor/huffman.py:InstructionPartFrequencyCounter.freq_info"]}
{"id": "C176", "title": "The union of independent events is bounded by the events", "statement": "For probabilities, indep_events_union(ps) is at least every p, at most the sum of all, 1 exactly if some p is 1 and 0 exactly if all are; indep_intersection(ps) is at most every p. The union does not fall when probabilities grow. Uniting two groups first and then the two results gives the union of all, which is not below either.", "quantifier": "all non-empty lists of probabilities, all pairs of lists", "why_tests_cant": "inequalities over all lists of numbers for a sum of 2^n - 1 terms of alternating sign", "anchors": ["semantic_codec/probability/probabilities.py:indep_events_union", "semantic_codec/probability/probabilities.py:indep_intersection"]}
{"id": "C177", "title": "The bar drawn has its length, never recedes and agrees with the percentage", "statement": "Every line that TextProgressBar writes consists of the prefix, a bar of exactly bar_length cells with the filled ones first, the percentage of the steps done rounded to the given number of decimals, and the suffix; from line to line the number of steps grows and the filled part never gets shorter; the line that ends the output is full and says 100%. The filled share of the bar is the percentage printed beside it, up to the rounding to whole cells.", "quantifier": "all totals, starts of at least 0, print distances of at least 0, bar lengths, decimals, prefixes, suffixes and numbers of calls", "why_tests_cant": "all histories; rounding of two quantities at arbitrary lengths and totals", "anchors": ["semantic_codec/report/print_progress.py:TextProgressBar.progress", "semantic_codec/report/print_progress.py:TextProgressBar._print_last_iteration"]}
{"id": "C178", "title": "The size of a solution file is set by where the originals stand", "statement": "A solution file that SolutionWriter.write_binary wrote has 12 bytes, 8 more for every address and 4 more for every candidate up to and including the first that has the original's encoding; so it has at least 12 bytes per address beyond the first 12, at most 8 per address and 4 per candidate beyond them, and of two programs of which one ranks every original at least as high, that one gives the file that is no larger, and of equal size only if all ranks agree.", "quantifier": "all original programs and all candidate programs that write_binary accepts", "why_tests_cant": "all programs, candidate lists and positions of the original", "anchors": ["semantic_codec/solution/solution_io.py:SolutionWriter.write_binary"]}
