{"id": "C01", "title": "Convolution computes the linear convolution", "statement": "For a fresh stream, sp_convolve(a, b) writes out[k] = sum over i+j=k of a[i]*b[j] for every k < a_len and leaves exactly the remaining b_len-1 sums in the carryover array, for every a, b with b_len >= 1; sp_convolve_one writes all a_len+b_len-1 sums.", "quantifier": "every sample array a, every impulse response b of length >= 1, every length relation between them (shorter, equal, longer)", "why_tests_cant": "the loop is split into a no-carryover part and a carryover part whose boundary depends on both lengths; tests use two literal arrays", "anchors": [{"file": "source/c-precompiled/sph-sp/main.c", "symbols": ["sp_convolve", "sp_convolve_one"]}]}
{"id": "C02", "title": "Convolution of a stream does not depend on how it is cut into blocks", "statement": "Feeding a stream to sp_convolve in consecutive blocks, passing the carryover array along, yields the same output samples and the same final carryover as one call on the whole stream. The equality is bit exact: it needs no algebraic law of floating point addition or multiplication.", "quantifier": "every stream, every impulse response, every partition of the stream into blocks of any sizes including blocks shorter than the impulse response and empty blocks", "why_tests_cant": "block partitions are an unbounded space and the code takes a different path when a block is shorter than the carryover", "anchors": [{"file": "source/c-precompiled/sph-sp/main.c", "symbols": ["sp_convolve"]}]}
{"id": "C03", "title": "Convolution stays inside its buffers", "statement": "sp_convolve never reads or writes outside a (a_len), b (b_len), out (a_len) and carryover (max(b_len-1, carryover_len)), and does not change carryover entries beyond that length.", "quantifier": "every combination of a_len, b_len >= 1, carryover_len and buffer sizes meeting the documented contract", "why_tests_cant": "an out of bounds write on one length combination is not visible in the outputs a test compares", "anchors": [{"file": "source/c-precompiled/sph-sp/main.c", "symbols": ["sp_convolve"]}]}
{"id": "C04", "title": "The convolution filter is seamless over a stream with fixed parameters", "statement": "Repeated calls of sp_convolution_filter with the same ir function and arguments, starting from a null state, produce for consecutive segments exactly the samples of one convolution of the whole input, for every segmentation.", "quantifier": "every input, every segmentation, every impulse response generator and argument block", "why_tests_cant": "interaction of lazily allocated state, carryover length and block length over unbounded call histories", "anchors": [{"file": "source/c-precompiled/sph-sp/filter.c", "symbols": ["sp_convolution_filter", "sp_convolution_filter_state_set"]}]}
{"id": "C05", "title": "The convolution filter always uses the impulse response of the requested parameters", "statement": "After every successful sp_convolution_filter_state_set(f, args) the state holds the impulse response f(args), whatever the history of earlier calls on that state.", "quantifier": "every history of calls with arbitrary ir functions and argument blocks of any lengths", "why_tests_cant": "the failure needs a particular three call history over two ir functions", "anchors": [{"file": "source/c-precompiled/sph-sp/filter.c", "symbols": ["sp_convolution_filter_state_set"]}]}
{"id": "C06", "title": "Filter state owns its memory: nothing is freed twice or used after free", "statement": "Over any history of sp_convolution_filter_state_set calls, any of which may fail inside the ir function, followed by sp_convolution_filter_state_free, every buffer is freed at most once and never used after it was freed.", "quantifier": "every history of successful and failing calls", "why_tests_cant": "needs failure injection at every point of every history", "anchors": [{"file": "source/c-precompiled/sph-sp/filter.c", "symbols": ["sp_convolution_filter_state_set", "sp_convolution_filter_state_free"]}, {"file": "source/c/foreign/sph-sc-lib/sph-sp/memreg.h", "symbols": ["memreg_free"]}]}
{"id": "C07", "title": "Windowed sinc kernels have unity or zero gain at frequency zero and odd length", "statement": "For every cutoff and transition for which the raw kernel sum is not zero, the low-pass kernel sums to 1, the high-pass kernel to 0, band-reject to 1 and band-pass to 0; the length is odd and kernels are symmetric; the null/passthrough/lp/hp case dispatch is by the position of the cutoffs.", "quantifier": "every cutoff, transition, window and sinc values", "why_tests_cant": "real valued parameter space; tests look at one cutoff", "anchors": [{"file": "source/c-precompiled/sph-sp/filter.c", "symbols": ["sp_windowed_sinc_lp_hp_ir", "sp_windowed_sinc_bp_br_ir", "sp_windowed_sinc_lp_hp_ir_length"]}]}
{"id": "C08", "title": "Spectral inversion and reversal", "statement": "sp_spectral_inversion_ir turns a kernel h of odd length into delta - h, is an involution, and maps gain g at frequency zero to 1-g; sp_spectral_reversal_ir negates exactly the odd indexes of an odd length kernel, is an involution, and exchanges the gain at zero with the gain at the highest frequency.", "quantifier": "every kernel of every odd length", "why_tests_cant": "loop runs backwards with step two; boundary depends on parity for every length", "anchors": [{"file": "source/c-precompiled/sph-sp/main.c", "symbols": ["sp_spectral_inversion_ir", "sp_spectral_reversal_ir"]}]}
{"id": "C09", "title": "Moving average is the centered mean of the extended signal", "statement": "Every output of sp_moving_average equals the mean of the width=2*radius+1 inputs around it, where inputs before the start come from prev and after the end from next, or from the documented point reflection when absent.", "quantifier": "every input, radius, presence of prev and next", "why_tests_cant": "the running sum hides an index error unless all window positions of an asymmetric input are compared; the only test input is symmetric", "anchors": [{"file": "source/c-precompiled/sph-sp/filter.c", "symbols": ["sp_moving_average"]}]}
{"id": "C10", "title": "Event lists are ordered by start time, first added first", "statement": "After any sequence of sp_event_list_add calls and one sp_seq_events_prepare, traversing the list gives a permutation of the added events in ascending start order, events with equal start in the order in which they were added.", "quantifier": "every sequence of additions", "why_tests_cant": "stability and order must hold for all insertion orders", "anchors": [{"file": "source/c-precompiled/sph-sp/sequencer.c", "symbols": ["sp_event_list_add", "sp_event_list_reverse"]}]}
{"id": "C11", "title": "Event list links stay consistent", "statement": "Under any interleaving of add, remove and (on non-empty lists) reverse, following next from the head reaches every element exactly once and previous is the exact inverse of next; removing an element removes only that element and reverse is an involution.", "quantifier": "every sequence of list operations on a heap of nodes", "why_tests_cant": "pointer surgery with first/middle/last cases over arbitrary histories", "anchors": [{"file": "source/c-precompiled/sph-sp/sequencer.c", "symbols": ["sp_event_list_add", "sp_event_list_remove", "sp_event_list_reverse"]}]}
{"id": "C12", "title": "Rendering does not depend on the block size", "statement": "Rendering [a,c) with one sp_seq call sums into the output exactly what rendering [a,b) and then [b,c) sums, for events whose own generate function has that property, bit exactly and for all b; events outside the range contribute nothing.", "quantifier": "every sorted event list, every block partition", "why_tests_cant": "space of partitions and event overlaps is unbounded", "anchors": [{"file": "source/c-precompiled/sph-sp/sequencer.c", "symbols": ["sp_seq"]}]}
{"id": "C13", "title": "Event life cycle", "statement": "Over any sequence of consecutive sp_seq calls each event is prepared at most once and before its first generate, generated only inside its own time range with event-relative times that tile the range without gap or overlap, and freed exactly once and not before its end; on failure all remaining events are freed.", "quantifier": "every event list, every sequence of consecutive ranges, every failure point", "why_tests_cant": "life cycle is a property of whole histories", "anchors": [{"file": "source/c-precompiled/sph-sp/sequencer.c", "symbols": ["sp_seq", "sp_event_list_remove", "sp_event_list_free"]}]}
{"id": "C14", "title": "Parallel and sequential sequencing agree", "statement": "sp_seq_parallel leaves in the output the same sums as sp_seq, whatever the order in which worker threads run the events, provided adding samples is commutative and associative; every active event is generated exactly once on its own block.", "quantifier": "every event list, range and schedule of the worker threads", "why_tests_cant": "schedules cannot be enumerated by tests", "anchors": [{"file": "source/c-precompiled/sph-sp/sequencer.c", "symbols": ["sp_seq_parallel", "sp_seq_parallel_future_f"]}]}
{"id": "C15", "title": "Block-wise generation tiles the range", "statement": "sp_event_block_generate calls the generator on consecutive sub-blocks whose lengths sum to end-start, each at most resolution long and non-empty, with block and event offsets that differ by start; a duration of zero divides by zero.", "quantifier": "every resolution, start and end", "why_tests_cant": "division and remainder boundaries for all values including zero", "anchors": [{"file": "source/c-precompiled/sph-sp/sequencer.c", "symbols": ["sp_event_block_generate"]}]}
{"id": "C16", "title": "Event memory registry calls every registered handler exactly once", "statement": "After any number of sp_event_memory_add / ensure / fixed_add (within ensured space) calls, sp_event_memory_free calls every handler exactly once with its address in registration order, and a second call does nothing; no registration writes past the registry.", "quantifier": "every sequence of registrations", "why_tests_cant": "growth happens at sizes tests do not reach; out of bounds writes are silent", "anchors": [{"file": "source/c-precompiled/sph-sp/sequencer.c", "symbols": ["sp_event_memory_add_with_handler", "sp_event_memory_ensure", "sp_event_memory_fixed_add_with_handler", "sp_event_memory_free"]}, {"file": "source/c/foreign/sph-sc-lib/sph-sp/array3.h", "symbols": ["array3_declare_type_custom", "array3_add"]}]}
{"id": "C17", "title": "Groups cover their events", "statement": "After any sequence of sp_group_add the group end is the maximum of the event ends (and the initial end); sp_group_append places events back to back: each appended event starts at the previous group end plus its own start offset.", "quantifier": "every sequence of additions", "why_tests_cant": "histories", "anchors": [{"file": "source/c-precompiled/sph-sp/sequencer.c", "symbols": ["sp_group_add", "sp_group_append"]}]}
{"id": "C18", "title": "Groups can be nested: rendering a group equals rendering its events shifted", "statement": "sp_seq on a group event placed at time t gives the same output as sp_seq on its events each shifted by t, for nested groups of any depth.", "quantifier": "every tree of groups, every range", "why_tests_cant": "unbounded nesting", "anchors": [{"file": "source/c-precompiled/sph-sp/sequencer.c", "symbols": ["sp_group_generate", "sp_seq"]}]}
{"id": "C19", "title": "Wave events are independent of block partition and never read outside the waveform", "statement": "sp_wave_event_generate over consecutive ranges writes the same samples as over the whole range; when the initial phase is below wvf_size the phase stays below wvf_size and every waveform access is in bounds, for arbitrary frequency, fmod and pmod values; sample i is amp*amod[i]*wvf[(phase+pmod[i]) mod size] with the phase being the running sum modulo the waveform size.", "quantifier": "every waveform, modulation array and partition", "why_tests_cant": "modulation values are arbitrary 32 bit integers and accumulate over unbounded durations", "anchors": [{"file": "source/c-precompiled/sph-sp/sequencer.c", "symbols": ["sp_wave_event_generate"]}, {"file": "source/c-precompiled/sph-sp/main.c", "symbols": ["sp_wave", "sp_phase"]}]}
{"id": "C20", "title": "Wave event channels inherit from the first channel", "statement": "sp_wave_event_prepare leaves channel 0 unchanged, gives unused channels a copy of channel 0 apart from the target channel, and fills only unset amod/pmod/fmod/frq of used channels; preparing twice is the same as preparing once.", "quantifier": "every channel configuration", "why_tests_cant": "combinatorial field presence", "anchors": [{"file": "source/c-precompiled/sph-sp/sequencer.c", "symbols": ["sp_wave_event_prepare"]}]}
{"id": "C21", "title": "Pointwise array operations", "statement": "add, multiply, divide, set, subtract, square, copy and their pairwise variants change exactly the first count elements, each as the scalar operation, and subtract on times saturates at zero instead of wrapping.", "quantifier": "every array, count and value", "why_tests_cant": "wrap around and boundary for all values", "anchors": [{"file": "source/c-precompiled/sph-sp/arrays-template.c", "symbols": ["add", "multiply", "subtract", "set", "copy", "square"]}]}
{"id": "C22", "title": "Array reverse", "statement": "sp_times_reverse / sp_samples_reverse write the input in reverse order and stay inside out[0..count).", "quantifier": "every array", "why_tests_cant": "off by one writes past the end are not visible in a prefix compare", "anchors": [{"file": "source/c-precompiled/sph-sp/arrays-template.c", "symbols": ["reverse"]}]}
{"id": "C23", "title": "Array and/or/xor by limit", "statement": "and: b[i] if both a[i] and b[i] reach the limit else 0; or: a[i] unless only b[i] reaches the limit; xor: 0 if both reach the limit, otherwise the one that does.", "quantifier": "every pair of arrays and limit", "why_tests_cant": "all sign/limit combinations for all values", "anchors": [{"file": "source/c-precompiled/sph-sp/arrays-template.c", "symbols": ["and", "or", "xor"]}]}
{"id": "C24", "title": "Cumulative sums and differences are inverse", "statement": "sp_samples_differences of cusum gives back the elements after the first, cusum of differences prefixed with the first element gives back the array; cusum[i] is the sum of the first i+1 elements.", "quantifier": "every array with count >= 1", "why_tests_cant": "all arrays", "anchors": [{"file": "source/c-precompiled/sph-sp/arrays-template.c", "symbols": ["cusum"]}, {"file": "source/c-precompiled/sph-sp/arrays.c", "symbols": ["sp_samples_differences"]}]}
{"id": "C25", "title": "Sequence increment counts", "statement": "sp_times_sequence_increment adds one to the number written little endian in base set_size modulo set_size^size and keeps digits below set_size; sp_times_sequences writes consecutive numbers, so set_size^digits sequences enumerate every digit string exactly once.", "quantifier": "every digit array, base and length", "why_tests_cant": "carry chains of any length", "anchors": [{"file": "source/c-precompiled/sph-sp/arrays.c", "symbols": ["sp_times_sequence_increment", "sp_times_sequences"]}]}
{"id": "C26", "title": "Permutations lists every permutation exactly once and leaves the input unchanged", "statement": "sp_times_permutations(size, set) returns size! arrays which are pairwise distinct rearrangements of set (for distinct elements) and does not modify set.", "quantifier": "every set and size", "why_tests_cant": "factorially many outputs; generic n needs induction over Heap's algorithm", "anchors": [{"file": "source/c-precompiled/sph-sp/arrays.c", "symbols": ["sp_times_permutations"]}]}
{"id": "C27", "title": "Compositions lists every composition exactly once", "statement": "sp_times_compositions(n) returns exactly the 2^(n-1) sequences of positive integers summing to n, each once, with matching sizes, without writing outside its buffers, for n >= 1.", "quantifier": "every n >= 1", "why_tests_cant": "exponentially many outputs; generic n", "anchors": [{"file": "source/c-precompiled/sph-sp/arrays.c", "symbols": ["sp_times_compositions"]}, {"file": "source/c-precompiled/sph-sp/main.c", "symbols": ["sp_compositions_max"]}]}
{"id": "C28", "title": "Bit expansion and selection", "statement": "sp_times_bits_to_times writes bit i of the little endian bit string for every i < size reading only ceil(size/32) words; gt_indices lists exactly the indices above the limit in ascending order also in place; select gathers the indexed values; random binary allocates enough words.", "quantifier": "every array, size and limit", "why_tests_cant": "word boundary arithmetic for all sizes; in-place aliasing", "anchors": [{"file": "source/c-precompiled/sph-sp/arrays.c", "symbols": ["sp_times_bits_to_times", "sp_times_gt_indices", "sp_times_select", "sp_times_random_binary"]}]}
{"id": "C29", "title": "Remove, insert space and subdivide", "statement": "sp_times_remove drops count elements at index and nothing else; sp_times_insert_space keeps all elements around a gap; removing an inserted gap gives the original back; sp_times_subdivide_difference inserts count equally spaced values.", "quantifier": "every array, index and count meeting the documented contract", "why_tests_cant": "branches for first/last index; all combinations", "anchors": [{"file": "source/c-precompiled/sph-sp/arrays.c", "symbols": ["sp_times_remove", "sp_times_insert_space", "sp_times_subdivide_difference"]}]}
{"id": "C30", "title": "Extract in range", "statement": "sp_times_extract_in_range writes exactly the values between min and max, in order and contiguously, and reports their number.", "quantifier": "every array and bounds", "why_tests_cant": "all orderings of values and bounds", "anchors": [{"file": "source/c-precompiled/sph-sp/arrays.c", "symbols": ["sp_times_extract_in_range"]}]}
{"id": "C31", "title": "Shuffle is a permutation, and every permutation is reachable exactly once", "statement": "sp_shuffle applies Fisher-Yates: for any random source the result is a permutation of the input, all accesses are in bounds, and the map from random choices to permutations is a bijection, so uniform choices give uniform permutations.", "quantifier": "every array and every random source", "why_tests_cant": "uniformity is a counting statement over all choice sequences", "anchors": [{"file": "source/c-precompiled/sph-sp/arrays.c", "symbols": ["sp_shuffle"]}, {"file": "source/c-precompiled/sph-sp/arrays-template.c", "symbols": ["shuffle", "swap"]}]}
{"id": "C32", "title": "Discrete random selection follows the distribution", "statement": "sp_time_random_discrete returns index i for exactly dist[i] of the sum many deviates; results are below cudist_size whenever the sum is positive; zero weight entries are never returned.", "quantifier": "every distribution and every deviate", "why_tests_cant": "counting over all deviates", "anchors": [{"file": "source/c-precompiled/sph-sp/arrays.c", "symbols": ["sp_time_random_discrete", "sp_times_random_discrete"]}]}
{"id": "C33", "title": "Scaling keeps relative sizes and hits the target", "statement": "sp_times_scale_sum / sp_times_scale_y / sp_samples_scale_y / set_gain adjust all values so that the sum or maximum is the target.", "quantifier": "every array and target", "why_tests_cant": "all arrays", "anchors": [{"file": "source/c-precompiled/sph-sp/arrays.c", "symbols": ["sp_times_scale_sum", "sp_times_scale_y", "sp_samples_scale_y", "sp_samples_set_gain"]}, {"file": "source/c-precompiled/sph-sp/arrays-template.c", "symbols": ["absolute_max"]}]}
{"id": "C34", "title": "Limits clamp", "statement": "sp_times_limit, sp_samples_limit and sp_samples_limit_abs return values within the limit, change only values beyond it, and are idempotent.", "quantifier": "every array and limit", "why_tests_cant": "all values and signs", "anchors": [{"file": "source/c-precompiled/sph-sp/arrays.c", "symbols": ["sp_times_limit", "sp_samples_limit", "sp_samples_limit_abs"]}]}
{"id": "C35", "title": "Bytes to integer", "statement": "sp_u64_from_array(a, n) is the little endian value of the n bytes for n in 1..8, is injective for each n and below 256^n.", "quantifier": "every byte array of 1 to 8 bytes", "why_tests_cant": "2^64 inputs", "anchors": [{"file": "source/c-precompiled/sph-sp/arrays.c", "symbols": ["sp_u64_from_array"]}]}
{"id": "C36", "title": "Interleave and deinterleave are inverse", "statement": "sp_deinterleave after sp_interleave restores all channels and vice versa; element (frame i, channel c) is at i*channels+c; all accesses are in bounds when frames*channels < 2^32.", "quantifier": "every channel count and block size", "why_tests_cant": "countdown loops with a product index that wraps at 2^32", "anchors": [{"file": "source/c-precompiled/sph-sp/main.c", "symbols": ["sp_interleave", "sp_deinterleave"]}]}
{"id": "C37", "title": "Random engine: never stuck, invertible", "statement": "xoshiro256** state update is a bijection on 256 bit states, never maps a non-zero state to the all-zero state, and sph_random_state_new never yields the all-zero state.", "quantifier": "every state and every seed", "why_tests_cant": "2^256 states", "anchors": [{"file": "source/c/foreign/sph-sc-lib/sph-sp/random.c", "symbols": ["sph_random_u64", "sph_random_state_new"]}]}
{"id": "C38", "title": "Bounded random integers are in range and unbiased", "statement": "sph_random_u64_bounded(range) is below range for range > 0 and each value has exactly floor(2^64/range) accepted 64 bit inputs, so results are exactly uniform; range 0 gives 0 and terminates.", "quantifier": "every range and every 64 bit generator output", "why_tests_cant": "2^64 inputs per range", "anchors": [{"file": "source/c/foreign/sph-sc-lib/sph-sp/random.c", "symbols": ["sph_random_u64_bounded", "sph_random_u32_bounded"]}]}
{"id": "C39", "title": "Random floats are in range", "statement": "sph_random_f64 and the bounded variants return k*2^-53 with 0 <= k < 2^53, so values are in [0,1), respectively [-1,1) for noise, every k being equally likely.", "quantifier": "every 64 bit generator output", "why_tests_cant": "2^64 inputs", "anchors": [{"file": "source/c/foreign/sph-sc-lib/sph-sp/random.c", "symbols": ["sph_random_f64", "sph_random_f64_bounded", "sph_random_f64_1to1"]}]}
{"id": "C40", "title": "Random arrays are stream positions", "statement": "Filling an array of n+m values gives the same values and the same final state as filling n and then m; equal seeds give equal sequences.", "quantifier": "every seed, n and m", "why_tests_cant": "unbounded lengths", "anchors": [{"file": "source/c/foreign/sph-sc-lib/sph-sp/random.c", "symbols": ["sph_random_u64_array", "sph_random_u32_array", "sph_random_f64_array_1to1"]}]}
{"id": "C41", "title": "Quicksort sorts", "statement": "quicksort terminates, accesses only indices in [left,right], and leaves a sorted permutation of the range, other elements unchanged, for every strict weak order.", "quantifier": "every array, range and comparison", "why_tests_cant": "all arrays; termination and in-bounds of the pivot-index-tracking scheme is subtle", "anchors": [{"file": "source/c/foreign/sph-sc-lib/sph-sp/quicksort.h", "symbols": ["quicksort"]}, {"file": "source/c-precompiled/sph-sp/arrays-template.c", "symbols": ["sort_swap", "sort_less"]}]}
{"id": "C42", "title": "Median", "statement": "sp_stat_times_median / samples_median return the middle element of the sorted array for odd sizes and the mean of the two middle elements for even sizes, without modifying the input.", "quantifier": "every array", "why_tests_cant": "only even sizes are tested", "anchors": [{"file": "source/c-precompiled/sph-sp/statistics.c", "symbols": ["define_sp_stat_median"]}]}
{"id": "C43", "title": "Range, mean and center statistics", "statement": "range gives min, max and max-min; mean is sum/size; center of mass is sum(i*x_i)/sum(x_i).", "quantifier": "every array", "why_tests_cant": "wrap around at 2^32 and all arrays", "anchors": [{"file": "source/c-precompiled/sph-sp/statistics.c", "symbols": ["define_sp_stat_range", "sp_stat_times_mean", "sp_stat_times_center", "sp_stat_samples_center"]}]}
{"id": "C44", "title": "Subsequence counts", "statement": "sp_stat_unique_all_max(n) = n(n+1)/2 modulo 2^32 and terminates for all n below 2^32-1; unique_max and repetition maxima follow.", "quantifier": "every n", "why_tests_cant": "termination at the type boundary", "anchors": [{"file": "source/c-precompiled/sph-sp/statistics.c", "symbols": ["sp_stat_unique_all_max", "sp_stat_unique_max", "sp_stat_repetition_all_max"]}]}
{"id": "C45", "title": "WAV header", "statement": "A file written with open_write, any number of writes and close_write starts with a well formed 44 byte RIFF/WAVE float header whose sizes match the bytes that follow, as long as the data is below 2^32-36 bytes.", "quantifier": "every channel count, rate and sequence of writes", "why_tests_cant": "size fields are patched after an arbitrary history of writes", "anchors": [{"file": "source/c-precompiled/sph-sp/file.c", "symbols": ["sp_file_open_write", "sp_file_close_write", "sp_file_write"]}]}
{"id": "C46", "title": "WAV round trip", "statement": "Reading back a written file with the same channel count returns the written frames, in any read block sizes, and signals end of file exactly when nothing is left; channel_count set by open_read equals the one in the file.", "quantifier": "every block of samples, every write and read partition", "why_tests_cant": "unbounded histories; open_read never sets the channel count", "anchors": [{"file": "source/c-precompiled/sph-sp/file.c", "symbols": ["sp_file_open_read", "sp_file_read"]}]}
{"id": "C47", "title": "Rendering a range to a file", "statement": "sp_render_range_file(start,end) writes the same frames as sp_render_range_block(start,end), block_size at a time including the remainder.", "quantifier": "every event, start, end and block size", "why_tests_cant": "start is ignored in the loop: visible only for start other than zero", "anchors": [{"file": "source/c-precompiled/sph-sp/main.c", "symbols": ["sp_render_range_file", "sp_render_range_block"]}]}
{"id": "C48", "title": "FFT computes the discrete Fourier transform", "statement": "sp_fft of any length computes sum x[j] w^(jk) in exact arithmetic, both by the radix-2 path and by Bluestein's convolution path.", "quantifier": "every length and input", "why_tests_cant": "only small lengths can be tested", "anchors": [{"file": "source/c/foreign/nayuki-fft/fft.c", "symbols": ["Fft_transform", "Fft_transformRadix2", "Fft_transformBluestein"]}, {"file": "source/c-precompiled/sph-sp/main.c", "symbols": ["sp_fft"]}]}
{"id": "C49", "title": "Inverse FFT", "statement": "sp_ffti after sp_fft returns length times the input; convolution via fft is circular convolution.", "quantifier": "every length and input", "why_tests_cant": "only small lengths can be tested", "anchors": [{"file": "source/c/foreign/nayuki-fft/fft.c", "symbols": ["Fft_inverseTransform", "Fft_convolveComplex"]}, {"file": "source/c-precompiled/sph-sp/main.c", "symbols": ["sp_ffti"]}]}
{"id": "C50", "title": "Bit reversal addressing", "statement": "reverse_bits(x,n) reverses the low n bits, is an involution on [0,2^n), and the swap loop in the radix-2 transform permutes the arrays by it exactly.", "quantifier": "every n and x", "why_tests_cant": "all sizes", "anchors": [{"file": "source/c/foreign/nayuki-fft/fft.c", "symbols": ["reverse_bits"]}]}
{"id": "C51", "title": "Line paths interpolate linearly and join", "statement": "A path of move and line segments sampled by sp_path_samples is at every integer x the linear interpolation between the surrounding points; consecutive segments agree at the joint, every output position is written.", "quantifier": "every list of ascending points", "why_tests_cant": "all point lists", "anchors": [{"file": "source/c-precompiled/sph-sp/path.c", "symbols": ["sp_path_samples"]}, {"file": "source/c/foreign/sph-sc-lib/sph-sp/spline-path.c", "symbols": ["spline_path_get", "spline_path_line_generate", "spline_path_prepare_segments"]}]}
{"id": "C52", "title": "Paths can be sampled in pieces", "statement": "spline_path_get over consecutive ranges gives the same values as one call over the whole range; any window can be requested in any order.", "quantifier": "every path and every sequence of windows", "why_tests_cant": "cached segment index makes the result depend on call history", "anchors": [{"file": "source/c/foreign/sph-sc-lib/sph-sp/spline-path.c", "symbols": ["spline_path_get"]}]}
{"id": "C53", "title": "Queue is first in first out", "statement": "For any sequence of enqueues and dequeues on non-empty queues, dequeued nodes come out in enqueue order, size counts the elements, no node is lost or duplicated.", "quantifier": "every sequence of operations", "why_tests_cant": "histories with pointer aliasing", "anchors": [{"file": "source/c/foreign/sph-sc-lib/sph-sp/queue.h", "symbols": ["sph_queue_enq", "sph_queue_deq"]}]}
{"id": "C54", "title": "Thread pool runs every task exactly once and finish drains", "statement": "For every interleaving of enqueuing threads, workers, condition wake-ups (including spurious ones) and finish, tasks are taken in enqueue order and each enqueued task is executed exactly once (unless the caller asked finish to discard), no wake-up is lost and the pool never deadlocks, no task enqueued before finish is lost, and when a waiting finish returns success all workers have exited and the queue is empty unless other threads kept enqueuing. No execution has undefined behaviour if no enqueue overlaps or follows finish and only the first call of finish discards.", "quantifier": "every number of threads, tasks and every schedule", "why_tests_cant": "schedules", "anchors": [{"file": "source/c/foreign/sph-sc-lib/sph-sp/thread-pool.c", "symbols": ["sph_thread_pool_worker", "sph_thread_pool_enqueue", "sph_thread_pool_finish"]}]}
{"id": "C55", "title": "Futures deliver their result", "statement": "touch returns only after f(data) completed and returns f(data), for every schedule; the pool can be initialised, deinitialised and initialised again.", "quantifier": "every schedule and every history of init/deinit", "why_tests_cant": "schedules and histories", "anchors": [{"file": "source/c/foreign/sph-sc-lib/sph-sp/futures.c", "symbols": ["sph_future_new", "sph_future_touch", "sph_future_eval", "sph_future_init", "sph_future_deinit"]}]}
{"id": "C56", "title": "Integer power and factorial", "statement": "sp_time_expt(b,e) = b^e mod 2^32, sp_time_factorial(n) = n! mod 2^32, set_sequence_max, compositions_max and permutations_max give the documented counts below the wrap.", "quantifier": "every 32 bit argument", "why_tests_cant": "2^64 inputs", "anchors": [{"file": "source/c-precompiled/sph-sp/main.c", "symbols": ["sp_time_expt", "sp_time_factorial", "sp_set_sequence_max", "sp_permutations_max", "sp_compositions_max"]}]}
{"id": "C57", "title": "Phase accumulation", "statement": "sp_phase and the wave loop keep phase = (start + sum of changes) mod cycle as long as no intermediate sum reaches 2^32, and always below cycle.", "quantifier": "every cycle and change sequence", "why_tests_cant": "unbounded sums", "anchors": [{"file": "source/c-precompiled/sph-sp/main.c", "symbols": ["sp_phase", "sp_phase_float", "sp_wave"]}]}
{"id": "C58", "title": "Triangle, square and pan shapes", "statement": "sp_triangle and sp_square are periodic and stay in [0,1] resp. {-1,1} with half the period each; sp_pan_to_amp is in [0,1], monotone, and the two channels of a pair have the documented values.", "quantifier": "every t, a, b, size and pan value", "why_tests_cant": "all values incl. wrap of 2*t", "anchors": [{"file": "source/c-precompiled/sph-sp/main.c", "symbols": ["sp_triangle", "sp_square", "sp_pan_to_amp"]}]}
{"id": "C59", "title": "Allocation failure is reported", "statement": "When an allocation fails, the sp allocation functions return a failure status and callers do not use the result.", "quantifier": "every allocation point", "why_tests_cant": "needs failure injection everywhere", "anchors": [{"file": "source/c/foreign/sph-sc-lib/sph-sp/helper.h", "symbols": ["sph_helper_status_id_memory"]}, {"file": "source/c/foreign/sph-sc-lib/sph-sp/helper.c", "symbols": ["sph_helper_primitive_malloc", "sph_helper_primitive_calloc", "sph_helper_primitive_realloc"]}, {"file": "source/c/foreign/sph-sc-lib/sph-sp/status.h", "symbols": ["status_require"]}]}
{"id": "C60", "title": "Harmonize rounds to the nearest multiple", "statement": "sp_time_harmonize(a, base, 1) is the multiple of base nearest to a, amount 0 leaves a unchanged and the result lies between a and the multiple.", "quantifier": "every a, base and amount", "why_tests_cant": "all values", "anchors": [{"file": "source/c-precompiled/sph-sp/main.c", "symbols": ["sp_time_harmonize"]}]}
{"id": "C61", "title": "Compensated sum", "statement": "sp_samples_sum equals the sum of the elements in exact arithmetic and reads exactly count elements.", "quantifier": "every array with count >= 1", "why_tests_cant": "all arrays", "anchors": [{"file": "source/c/foreign/sph-sc-lib/sph-sp/float.h", "symbols": ["sph_define_float_sum"]}]}
{"id": "C62", "title": "Blocks", "statement": "sp_block_new allocates and zeroes all channels or nothing, block_free frees each channel exactly once, block_with_offset shifts all channels, block_copy copies exactly size samples per channel.", "quantifier": "every channel count, size and failing allocation", "why_tests_cant": "failure injection; size zero blocks", "anchors": [{"file": "source/c-precompiled/sph-sp/main.c", "symbols": ["sp_block_new", "sp_block_free", "sp_block_with_offset", "sp_block_copy"]}]}
{"id": "C63", "title": "Map events", "statement": "sp_map_event_generate runs the wrapped event and then maps the result; isolated maps see only the wrapped event's output and never the other events' output.", "quantifier": "every wrapped event and map function", "why_tests_cant": "all compositions", "anchors": [{"file": "source/c-precompiled/sph-sp/sequencer.c", "symbols": ["sp_map_event_generate", "sp_map_event_isolated_generate", "sp_map_event_free"]}]}
{"id": "C64", "title": "Modulo match", "statement": "sp_modulo_match returns the first index whose divisor divides the number, else the last index.", "quantifier": "every number and divisor list", "why_tests_cant": "all values", "anchors": [{"file": "source/c-precompiled/sph-sp/main.c", "symbols": ["sp_modulo_match"]}]}
{"id": "C65", "title": "Strings", "statement": "string_append, string_clone and string_join build exactly the expected NUL terminated string within the allocated size; ensure_trailing_slash appends a slash exactly if missing.", "quantifier": "every string", "why_tests_cant": "all strings; buffer sizes", "anchors": [{"file": "source/c/foreign/sph-sc-lib/sph-sp/string.h", "symbols": ["string_append", "string_clone", "string_join", "ensure_trailing_slash"]}]}
{"id": "C66", "title": "Interpolation, blending and x/y scaling", "statement": "sp_times_scale writes (count-1)*factor values that interpolate linearly between the scaled inputs; blend/mask give a at 0, b at 1 and stay between.", "quantifier": "every array and fraction", "why_tests_cant": "all values", "anchors": [{"file": "source/c-precompiled/sph-sp/arrays.c", "symbols": ["sp_times_scale", "sp_times_blend", "sp_times_mask", "sp_samples_blend"]}]}
{"id": "C67", "title": "Changing to another impulse response keeps the tail of the previous one", "statement": "When the impulse response of a running convolution filter is replaced, the output continues with the complete remaining tail of the earlier segments added to the response of the new segments, whatever the lengths of the old and the new response.", "quantifier": "every sequence of segments and impulse responses, every length change", "why_tests_cant": "the loss of samples depends on the relation of the segment length, the old and the new response length over several calls", "anchors": [{"file": "source/c-precompiled/sph-sp/filter.c", "symbols": ["sp_convolution_filter", "sp_convolution_filter_state_set"]}, {"file": "source/c-precompiled/sph-sp/main.c", "symbols": ["sp_convolve"]}]}
{"id": "C68", "title": "A failed addition leaves the group unchanged", "statement": "When sp_group_add or sp_group_append fails (the event cannot be prepared or memory runs out), the group has the same events and the same end as before.", "quantifier": "every group, event and failure point", "why_tests_cant": "needs failure injection at every point", "anchors": [{"file": "source/c-precompiled/sph-sp/sequencer.c", "symbols": ["sp_group_add", "sp_group_append"]}]}
{"id": "C69", "title": "Preparing an empty event list keeps it empty", "statement": "sp_seq_events_prepare on a list without events leaves the list pointer null; on every other list it reverses it.", "quantifier": "every event list including the empty one", "why_tests_cant": "the result depends on an uninitialised variable, a test may pass by chance", "anchors": [{"file": "source/c-precompiled/sph-sp/sequencer.c", "symbols": ["sp_event_list_reverse"]}, {"file": "source/c-precompiled/sph-sp/sequencer.h", "symbols": ["sp_seq_events_prepare"]}]}
{"id": "C70", "title": "Shuffling samples keeps the samples", "statement": "sp_samples_shuffle returns the same samples in another order.", "quantifier": "every array and random state", "why_tests_cant": "the result depends on the random sequence; all sizes", "anchors": [{"file": "source/c-precompiled/sph-sp/arrays.c", "symbols": ["sp_samples_shuffle"]}, {"file": "source/c-precompiled/sph-sp/arrays-template.c", "symbols": ["swap", "shuffle"]}]}
{"id": "C71", "title": "Seamless join fades linearly", "statement": "sp_times_make_seamless_right writes count values that fade linearly from the first array to the start of the second, sp_times_make_seamless_left from the end of the first array to the second; both stay inside of the arrays.", "quantifier": "every pair of arrays and fade length", "why_tests_cant": "integer division and boundary reads", "anchors": [{"file": "source/c-precompiled/sph-sp/arrays.c", "symbols": ["sp_times_make_seamless_right", "sp_times_make_seamless_left"]}]}
{"id": "C72", "title": "Rounding to a multiple", "statement": "sp_time_round_to_multiple(a, base) is a multiple of base nearest to a.", "quantifier": "every a and base", "why_tests_cant": "all values", "anchors": [{"file": "source/c-precompiled/sph-sp/arrays-template.c", "symbols": ["sp_time_round_to_multiple"]}]}
{"id": "C73", "title": "Amplitude of sp_wave", "statement": "sp_wave without amplitude modulation array adds amp times the table values to the output, with an array amp times the array times the table values.", "quantifier": "every amplitude, table and output", "why_tests_cant": "a test with amplitude one passes", "anchors": [{"file": "source/c-precompiled/sph-sp/main.c", "symbols": ["sp_wave", "sp_sine"]}]}
{"id": "C74", "title": "Sine tables hold one period", "statement": "sp_sine_period(size) writes sin(2 pi i / size) at every index i.", "quantifier": "every size", "why_tests_cant": "odd sizes; transcendental function", "anchors": [{"file": "source/c-precompiled/sph-sp/main.c", "symbols": ["sp_sine_period"]}]}
{"id": "C75", "title": "Unique discrete random numbers", "statement": "sp_times_random_discrete_unique ends for every distribution and writes min(size, number of outcomes) numbers, all different, from the start of the output array.", "quantifier": "every distribution, size and random sequence", "why_tests_cant": "the loop repeats until a new number appears and ends only if one exists; the result depends on the random sequence", "anchors": [{"file": "source/c-precompiled/sph-sp/arrays.c", "symbols": ["sp_times_random_discrete_unique", "sp_times_random_discrete"]}]}
{"id": "C76", "title": "Conversions between times and samples and geometric series", "statement": "sp_samples_to_times rounds every sample to the nearest time, sp_times_to_samples followed by sp_samples_to_times restores all times, sp_times_multiplications writes start times factor to the power i at index i, sp_samples_divisions divides in the same way, sp_samples_to_units maps -1..1 to 0..1.", "quantifier": "every array and count", "why_tests_cant": "all values including the ends of the range", "anchors": [{"file": "source/c-precompiled/sph-sp/arrays.c", "symbols": ["sp_samples_to_times", "sp_times_to_samples", "sp_times_multiplications", "sp_samples_divisions", "sp_samples_to_units"]}]}
{"id": "C77", "title": "Normally distributed numbers stay in range", "statement": "sp_normal_random(min, max) returns a number from min to max.", "quantifier": "every min <= max and random sequence", "why_tests_cant": "the sum of 32 numbers wraps for large values", "anchors": [{"file": "source/c-precompiled/sph-sp/main.c", "symbols": ["sp_normal_random"]}]}
{"id": "C78", "title": "Deviation, skewness, kurtosis and inharmonicity", "statement": "sp_stat_*_deviation, skewness and kurtosis are the documented quotients of the mean powers of the differences to the mean. sp_stat_*_inharmonicity is the smallest mean distance of all quotients x/y to the nearest integer over all elements y; it is at most one half, and zero exactly if all elements are integer multiples of one of them.", "quantifier": "every array of positive numbers", "why_tests_cant": "all arrays; the minimum is over all elements", "anchors": [{"file": "source/c-precompiled/sph-sp/statistics.c", "symbols": ["define_sp_stat_deviation", "define_sp_stat_skewness", "define_sp_stat_kurtosis", "define_sp_stat_inharmonicity"]}]}
{"id": "C79", "title": "Scaling samples to times", "statement": "sp_samples_scale_to_times maps all samples into 0..max, in proportion to the distance from the smallest, with the largest at max.", "quantifier": "every array of samples and max", "why_tests_cant": "arrays without negative samples and arrays of equal samples are not tested", "anchors": [{"file": "source/c-precompiled/sph-sp/statistics.c", "symbols": ["sp_samples_scale_to_times"]}]}
{"id": "C80", "title": "Curved paths stay on their curve", "statement": "A path with curvatures sampled by sp_path_samples ends, writes every position, stays inside the array, and every sample is a value of the quadratic curve at most half a sample away; spline_path_get gives the same for every window.", "quantifier": "every list of points, every curvature from 0 to 1, every window", "why_tests_cant": "the sampling steps, rounding and gap filling depend on all of position, height and curvature", "anchors": [{"file": "source/c-precompiled/sph-sp/path.c", "symbols": ["sp_path_samples"]}, {"file": "source/c/foreign/sph-sc-lib/sph-sp/spline-path.c", "symbols": ["spline_path_beziern_generate", "spline_path_perpendicular_point", "spline_path_bezier_arc"]}]}
{"id": "C81", "title": "Noise events sound the same in any division", "statement": "A noise event adds to the output blocks, for each of its channels, the limited product of the amplitudes and the filtered white noise of its random state. The samples depend on the time in the event alone, not on the sizes of the calls that render it.", "quantifier": "every configuration with any number of channels, every random state, every division of the event into calls", "why_tests_cant": "the filter state, the random state and the shared buffers are carried over between calls", "anchors": [{"file": "source/c-precompiled/sph-sp/sequencer.c", "symbols": ["sp_noise_event_generate", "sp_noise_event_generate_block", "sp_noise_event_prepare", "sp_noise_event_filter_state"]}]}
{"id": "C82", "title": "Noise events stay inside their buffers", "statement": "Preparing and rendering a noise event never accesses its temporary buffers outside of their size.", "quantifier": "every configuration, every event duration, every division into calls", "why_tests_cant": "depends on the relation of duration, sample rate, transition and call size", "anchors": [{"file": "source/c-precompiled/sph-sp/sequencer.c", "symbols": ["sp_noise_event_prepare", "sp_noise_event_generate_block"]}]}
{"id": "C83", "title": "Settings that noise channels leave out come from the first channel", "statement": "In a noise event, what a channel after the first leaves out is taken from the first channel; a channel that is not marked as used is a copy of the first on its own output channel.", "quantifier": "every configuration", "why_tests_cant": "all combinations of given and missing settings", "anchors": [{"file": "source/c-precompiled/sph-sp/sequencer.c", "symbols": ["sp_noise_event_prepare"]}]}
{"id": "C84", "title": "Minimum, maximum, search and sum", "statement": "sp_*_min and sp_*_max return an element such that no element is less resp. greater, sp_*_equal is true exactly if all elements equal the value, sp_times_contains exactly if one does, sp_times_sum is the sum modulo 2 to the 32.", "quantifier": "every array, size, element and value", "why_tests_cant": "all arrays and positions of the extreme element", "anchors": [{"file": "source/c-precompiled/sph-sp/arrays-template.c", "symbols": ["sp_##type_name##_min", "sp_##type_name##_max", "sp_##type_name##_equal"]}, {"file": "source/c-precompiled/sph-sp/arrays.c", "symbols": ["sp_times_contains", "sp_times_sum"]}]}
{"id": "C85", "title": "Exchange, ranges and arithmetic series", "statement": "sp_times_swap exchanges exactly two elements (samples: C70), sp_*_range copies exactly the elements from start to before end, sp_*_additions writes start plus i times summand at index i; nothing else in memory changes.", "quantifier": "every array, index, range and count", "why_tests_cant": "all positions; aliasing", "anchors": [{"file": "source/c-precompiled/sph-sp/arrays-template.c", "symbols": ["sp_##type_name##_swap", "sp_##type_name##_range", "sp_##type_name##_additions"]}]}
{"id": "C86", "title": "Bounded discrete random numbers", "statement": "sp_time_random_discrete_bounded and sp_sample_random_discrete_bounded return a number from zero to before range, selected with the weights of the distribution.", "quantifier": "every distribution, range and random sequence", "why_tests_cant": "the result depends on the random sequence and on the size of the distribution", "anchors": [{"file": "source/c-precompiled/sph-sp/arrays.c", "symbols": ["sp_time_random_discrete_bounded", "sp_sample_random_discrete_bounded"]}]}
{"id": "C87", "title": "Streaming windowed sinc filters use the requested settings", "statement": "sp_windowed_sinc_lp_hp and sp_windowed_sinc_bp_br filter each segment of a stream with the kernel of the cutoffs, transitions and type of that call, whatever the settings of the calls before were; a stream with constant settings is the convolution with the kernel, however it is divided into calls.", "quantifier": "every sequence of calls on one state, every division, every setting", "why_tests_cant": "the settings are passed as bytes and compared with those of earlier calls; the result depends on the history of the state", "anchors": [{"file": "source/c-precompiled/sph-sp/filter.c", "symbols": ["sp_windowed_sinc_lp_hp", "sp_windowed_sinc_bp_br", "sp_windowed_sinc_lp_hp_ir_f", "sp_windowed_sinc_bp_br_ir_f", "sp_convolution_filter_state_set"]}]}
{"id": "C88", "title": "Deharmonize moves values away from multiples", "statement": "sp_time_deharmonize(a, base, amount) with amount between 0 and 1 returns a number at most base/2 away from a, amount 0 leaves a unchanged, and numbers nearer to a multiple of base can be moved further.", "quantifier": "every a, base, amount and sequence of random numbers", "why_tests_cant": "the result depends on random numbers; all values must be in bounds", "anchors": [{"file": "source/c-precompiled/sph-sp/main.c", "symbols": ["sp_time_deharmonize"]}]}
{"id": "C89", "title": "Envelopes and paths of numbers", "statement": "sp_path_times gives the nearest integers to the values of the path. sp_envelope_zero and its versions for three to five points give a path from zero to zero through the given points, sp_envelope_scaled and its versions a path through the scaled points, with positions that are parts of the length relative to the previous one; success is returned as status.", "quantifier": "every length, every list of points", "why_tests_cant": "all lengths, positions and values", "anchors": [{"file": "source/c-precompiled/sph-sp/path.c", "symbols": ["sp_path_times", "sp_define_path_n", "sp_envelope_zero", "sp_envelope_scaled", "sp_define_envelope_zero_n", "sp_define_envelope_scaled_n"]}]}
{"id": "C90", "title": "Initialisation is all or nothing", "statement": "sp_initialize succeeds exactly if all its parts succeed; after success the sine tables hold one period each and sp_sine and sp_sine_lfo add sines of the given frequencies; after failure nothing is left allocated or running. sp_deinitialize after sp_initialize releases everything, whatever sp_initialize returned.", "quantifier": "every rate, channel and thread count, every outcome of the allocations and thread creation", "why_tests_cant": "allocation failures at every point; all rates", "anchors": [{"file": "source/c-precompiled/sph-sp/main.c", "symbols": ["sp_initialize", "sp_deinitialize", "sp_sine", "sp_sine_lfo"]}]}
{"id": "C91", "title": "Memory registers free everything once", "statement": "For every sequence of additions to a memory register and frees that keeps within its size, every element is freed exactly once, the last added first; more additions than the size overrun the register.", "quantifier": "every size and every sequence of additions and frees", "why_tests_cant": "all sequences", "anchors": [{"file": "source/c/foreign/sph-sc-lib/sph-sp/memreg.h", "symbols": ["memreg_init", "memreg_add", "memreg_free", "memreg2_add", "memreg2_free"]}]}
{"id": "C92", "title": "Comparison with a margin", "statement": "sph_f64_nearly_equal is true exactly if the numbers differ by less than the margin, and the array versions exactly if the lengths are equal and all elements are nearly equal.", "quantifier": "every number, margin and array", "why_tests_cant": "all values and positions", "anchors": [{"file": "source/c/foreign/sph-sc-lib/sph-sp/float.c", "symbols": ["sph_f64_nearly_equal", "sph_f32_nearly_equal"]}, {"file": "source/c/foreign/sph-sc-lib/sph-sp/float.h", "symbols": ["define_float_array_nearly_equal"]}]}
{"id": "C93", "title": "Creating directory structures", "statement": "ensure_directory_structure returns 1 exactly if the path exists afterwards; it creates only the path and the directories that contain it, removes nothing, and works for every path, whatever other processes create meanwhile.", "quantifier": "every path, every file system, every set of permissions and every interference", "why_tests_cant": "depends on the state of the file system and on the schedule of other processes", "anchors": [{"file": "source/c/foreign/sph-sc-lib/sph-sp/filesystem.h", "symbols": ["ensure_directory_structure", "dirname_2", "file_exists"]}]}
{"id": "C94", "title": "Rendering to files survives failures", "statement": "sp_render_range_file returns a failure status when the file cannot be opened or written or an event fails, closes the file and releases the event list in every case.", "quantifier": "every event, every range and block size, every failure of opening, of writing and of callbacks", "why_tests_cant": "failures at every block", "anchors": [{"file": "source/c-precompiled/sph-sp/main.c", "symbols": ["sp_render_range_file"]}, {"file": "source/c-precompiled/sph-sp/file.c", "symbols": ["sp_file_open_write", "sp_file_close_write"]}]}
{"id": "C95", "title": "Rendering complete events", "statement": "sp_render_file writes a file with all frames from zero to the end of the event, with the channel count and rate of the library, also for events whose end is only known after preparation; sp_render_plot plots the first channel of the same frames.", "quantifier": "every event, channel count and rate below 2^30", "why_tests_cant": "all durations, events that set their end when prepared", "anchors": [{"file": "source/c-precompiled/sph-sp/main.c", "symbols": ["sp_render_file", "sp_render_plot"]}]}
{"id": "C96", "title": "Each plot has its own data file", "statement": "sp_plot_samples and sp_plot_times write one line for each element to a new file and run gnuplot with the complete command for this file; files of earlier plots are kept.", "quantifier": "every sequence of plots, every array", "why_tests_cant": "depends on the counter: the path is cut off at high numbers", "anchors": [{"file": "source/c-precompiled/sph-sp/plot.c", "symbols": ["sp_plot_samples", "sp_plot_times", "sp_plot_samples_file", "sp_plot_times_file", "sp_plot_samples_to_file", "sp_plot_times_to_file"]}]}
{"id": "C97", "title": "Spectrum plots", "statement": "sp_plot_spectrum_to_file writes twice the magnitude of every frequency of the discrete Fourier transform divided by the number of samples, and releases its memory in every case.", "quantifier": "every array and every outcome of the allocations", "why_tests_cant": "all lengths; allocation failures", "anchors": [{"file": "source/c-precompiled/sph-sp/plot.c", "symbols": ["sp_plot_spectrum_to_file", "sp_plot_spectrum"]}]}
{"id": "C98", "title": "Cubic curves in paths", "statement": "Sampling a path of moves, lines and cubic Bezier curves with spline_path_get ends, writes only inside of the requested window, and gives for every position the height of a point of the curve that is at most half a sample away, or the mean of the neighbours where the curve has no such point.", "quantifier": "every path, every control point, every window", "why_tests_cant": "all curves; whether gaps occur depends on steepness", "anchors": [{"file": "source/c/foreign/sph-sc-lib/sph-sp/spline-path.c", "symbols": ["spline_path_bezier2", "spline_path_bezier2_generate", "spline_path_beziern_generate", "spline_path_get"]}]}
{"id": "C99", "title": "Events release all their memory", "statement": "After events of any kind and nesting have been generated and freed with sp_event_list_free or sp_event_free, exactly the memory that was allocated before they were created is allocated. Freeing an event again changes nothing.", "quantifier": "every tree of groups, map events, noise events and other events, every number of registered allocations", "why_tests_cant": "all nestings and all numbers of allocations; leaks are not visible in results", "anchors": [{"file": "source/c-precompiled/sph-sp/sequencer.c", "symbols": ["sp_event_memory_add_with_handler", "sp_event_memory_free", "sp_event_list_free", "sp_group_free", "sp_group_prepare", "sp_map_event_free", "sp_map_event_prepare", "sp_noise_event_prepare", "sp_noise_event_free"]}, {"file": "source/c-precompiled/sph-sp/sequencer.h", "symbols": ["sp_event_free", "sp_event_malloc_srq"]}]}
{"id": "C100", "title": "Failed preparation releases the list", "statement": "When the prepare function of an event fails, sp_seq frees every event of the list and all their memory exactly once, including what the failed function has allocated with sp_event_malloc, and leaves the list empty.", "quantifier": "every list, every position of the failing event, every number of allocations before the failure", "why_tests_cant": "depends on the number of allocations before the failure", "anchors": [{"file": "source/c-precompiled/sph-sp/sequencer.c", "symbols": ["sp_seq", "sp_event_list_free", "sp_event_memory_add_with_handler"]}, {"file": "source/c-precompiled/sph-sp/sequencer.h", "symbols": ["sp_event_prepare_srq"]}]}
{"id": "C101", "title": "Parallel groups of parallel groups return", "statement": "sp_seq_parallel returns for every nesting of parallel groups, whatever the number of threads of the pool and however they are scheduled, if no thread is left out for ever and the events that are not groups end.", "quantifier": "every number of threads, nesting of groups and schedule", "why_tests_cant": "it depends on the schedule whether all threads wait for events that only they could evaluate", "anchors": [{"file": "source/c-precompiled/sph-sp/sequencer.c", "symbols": ["sp_seq_parallel", "sp_seq_parallel_future_f", "sp_group_generate_parallel"]}, {"file": "source/c/foreign/sph-sc-lib/sph-sp/futures.c", "symbols": ["sph_future_new", "sph_future_touch"]}, {"file": "source/c/foreign/sph-sc-lib/sph-sp/thread-pool.c", "symbols": ["sph_thread_pool_worker", "sph_thread_pool_enqueue"]}]}
{"id": "C102", "title": "Failures in parallel rendering", "statement": "When an event fails or memory runs out in sp_seq_parallel, the call returns the failure of the first failing event in list order (or of the allocation), whatever the schedule, frees the events, and no thread uses a future, block or event after it has been freed.", "quantifier": "every list of events, failure and schedule", "why_tests_cant": "a thread that still evaluates another event when the call returns is seen only in some schedules", "anchors": [{"file": "source/c-precompiled/sph-sp/sequencer.c", "symbols": ["sp_seq_parallel", "sp_seq_parallel_future_f"]}, {"file": "source/c/foreign/sph-sc-lib/sph-sp/futures.c", "symbols": ["sph_future_touch", "sph_future_eval"]}]}
{"id": "C103", "title": "Noise in parallel groups is reproducible", "statement": "Noise events in a parallel group get the random numbers they get with sp_seq, whatever the order in which threads prepare them; events of one group never share their random numbers because of the schedule.", "quantifier": "every number of noise events, state of the generator and schedule", "why_tests_cant": "the schedule decides which event draws which seed, and whether two draws overlap", "anchors": [{"file": "source/c-precompiled/sph-sp/sequencer.c", "symbols": ["sp_noise_event_prepare", "sp_seq_parallel_future_f"]}, {"file": "source/c-precompiled/sph-sp/main.c", "symbols": ["sp_random_state_new"]}, {"file": "source/c/foreign/sph-sc-lib/sph-sp/random.c", "symbols": ["sph_random_u64", "sph_random_u32"]}]}
{"id": "C104", "title": "Default configurations sound on every channel", "statement": "Events made with sp_wave_event_config_new_n or sp_noise_event_config_new_n, with amplitudes (and the frequency of a wave) set for the first channel only, play the same sound on every channel of the output: a sine of the frequency, or white noise up to half the sample rate.", "quantifier": "every number of configurations, sample rate, frequency, amplitude array, duration, division into calls and number of output channels", "why_tests_cant": "all rates and channel counts; some conversions lose digits only for high rates", "anchors": [{"file": "source/c-precompiled/sph-sp/sequencer.c", "symbols": ["sp_wave_event_config_defaults", "sp_wave_event_config_new_n", "sp_noise_event_config_defaults", "sp_noise_event_config_new_n", "sp_wave_event_prepare", "sp_noise_event_prepare"]}]}
{"id": "C105", "title": "Failures can be told apart", "statement": "sp_status_name gives every failure of the library a name of its own and sp_status_description a description; both accept every status.", "quantifier": "every group and id", "why_tests_cant": "all groups and ids; a missing case is not visible in results", "anchors": [{"file": "source/c-precompiled/sph-sp/main.c", "symbols": ["sp_status_name", "sp_status_description"]}, {"file": "source/c/foreign/sph-sc-lib/sph-sp/helper.c", "symbols": ["sph_helper_status_description", "sph_helper_status_name"]}]}
{"id": "C106", "title": "Ends of paths and repeated use of segments", "statement": "spline_path_start, spline_path_end and spline_path_size give the first and last point and the length of every path. spline_path_set and spline_path_segments_get can be used any number of times with the same segments, give the same samples each time, and release everything exactly once.", "quantifier": "every list of segments of all kinds, every window, every number of calls", "why_tests_cant": "all lists of segments; that segments are changed by use is visible only when they are used again", "anchors": [{"file": "source/c/foreign/sph-sc-lib/sph-sp/spline-path.c", "symbols": ["spline_path_start", "spline_path_end", "spline_path_size", "spline_path_set", "spline_path_segments_get", "spline_path_free", "spline_path_path", "spline_path_bezier_arc_prepare"]}]}
{"id": "C107", "title": "Compensated sums in double precision", "statement": "sp_samples_sum compensates rounding: with doubles the result is the exact sum up to about one rounding of the result, for every order and sign of the elements, and at worst as inexact as a plain sum. Reads exactly count elements.", "quantifier": "every array of finite doubles with count >= 1 (up to 2^50) whose sum of magnitudes is below 2^1000", "why_tests_cant": "rounding errors depend on all values and their order; a lost compensation is visible only for rare combinations", "anchors": [{"file": "source/c/foreign/sph-sc-lib/sph-sp/float.h", "symbols": ["sph_define_float_sum"]}, {"file": "source/c/foreign/sph-sc-lib/sph-sp/float.c", "symbols": ["sph_f64_sum"]}]}
{"id": "C108", "title": "Conversions of units in double precision", "statement": "Times converted to samples and back are unchanged, samples are rounded to the nearest time, samples -1..1 become units 0..1. Conversions between hertz, factors, wavelengths and radians undo each other, and durations are n/d seconds.", "quantifier": "every finite double, every sample rate, frequency and fraction", "why_tests_cant": "results depend on the rounding of each double; wrong results are rare or one unit off", "anchors": [{"file": "source/c-precompiled/sph-sp/main.h", "symbols": ["sp_cheap_round_positive", "sp_sample_to_time", "sp_time_to_sample", "sp_sample_to_unit", "sp_hz_to_factor", "sp_factor_to_hz", "sp_hz_to_samples", "sp_samples_to_hz", "sp_hz_to_rad", "sp_rad_to_hz", "sp_rate_duration"]}]}
{"id": "C109", "title": "Random numbers in double precision", "statement": "Random numbers of sp_unit_random and sp_sample_random are computed without rounding errors and are from 0 to below 1 resp. -1 to below 1; numbers of sph_random_f64_bounded are from 0 to below the range for every positive range; the sequence of states does not depend on the range.", "quantifier": "every state of the generator and every positive range", "why_tests_cant": "one state in 2^53 decides whether rounding reaches the excluded upper end", "anchors": [{"file": "source/c/foreign/sph-sc-lib/sph-sp/random.c", "symbols": ["sph_random_f64_from_u64", "sph_random_f64", "sph_random_f64_bounded", "sph_random_f64_1to1", "sph_random_f64_0to1"]}]}
{"id": "C110", "title": "Lines in double precision", "statement": "Line segments of paths, computed with doubles, write exactly the requested window, never leave the range of the values of their end points, meet the first point exactly, differ from the exact line by a few roundings at most, and give the same double at a position for every window.", "quantifier": "every pair of points with integer positions below 2^32 and values up to 2^1000, every window", "why_tests_cant": "rounding depends on all values and positions; overshooting by one unit is rare", "anchors": [{"file": "source/c/foreign/sph-sc-lib/sph-sp/spline-path.c", "symbols": ["spline_path_line_generate", "linearly_interpolate"]}]}
{"id": "C111", "title": "Accuracy of convolution in double precision", "statement": "sp_convolve and sp_convolve_one with doubles give finite samples that differ from the exact convolution by at most about 2 n + 2 roundings relative to the sum of the magnitudes of the products, n being the length of the shorter array, for every division of a signal into segments; samples are at most the largest input magnitude times the sum of the magnitudes of the impulse response, up to this error.", "quantifier": "every array of finite doubles with a response of at most 2^50 elements and sums below 2^998, every division into segments", "why_tests_cant": "rounding errors of all sums and all divisions", "anchors": [{"file": "source/c-precompiled/sph-sp/main.c", "symbols": ["sp_convolve", "sp_convolve_one"]}]}
{"id": "C112", "title": "Accuracy of samples stored in WAV files", "statement": "A finite sample written to a WAV file and read again is the nearest number that a 32 bit float can be, with its sign: the error is at most 2^-24 of the sample (2^-150 for tiny ones). Samples between -1 and 1 stay there with an error of at most 2^-25, samples that a float can be are unchanged, order is kept, and writing what was read changes nothing more.", "quantifier": "every double including infinities and not-a-number where stated, every written and read file", "why_tests_cant": "all 2^64 samples and all files", "anchors": [{"file": "source/c-precompiled/sph-sp/file.c", "symbols": ["sp_file_write", "sp_file_read"]}]}
{"id": "C113", "title": "Accuracy of the moving average in double precision", "statement": "With doubles the outputs of sp_moving_average are finite and differ from the exact mean of their window by a bound that grows linearly with the position and is relative to the largest magnitude anywhere in the input and its neighbour blocks. The stronger claim, that an output depends only on the samples of its window and is near their mean, does not hold: after one loud sample all later outputs can be zero.", "quantifier": "all inputs of finite samples, all previous and next blocks, all radii, all positions", "why_tests_cant": "the running sum accumulates rounding errors over the whole block, so the error depends on all earlier samples", "anchors": [{"file": "source/c-precompiled/sph-sp/filter.c", "symbols": ["sp_moving_average"]}]}
{"id": "C114", "title": "Finishing a thread pool again", "statement": "sph_thread_pool_finish can be called again, for example to wait after a call with no_wait: however many calls have been made before, when a waiting call returns success then all threads have ended and every task that was enqueued before the first call has been executed exactly once unless discarded; the same holds when the threads have come to rest after a call without waiting. Tasks enqueued after the threads have ended are not executed by any later call, and the tasks that later calls create to end threads remain in the queue.", "quantifier": "every number of threads, tasks and calls of finish and every schedule", "why_tests_cant": "schedules and histories of calls", "anchors": [{"file": "source/c/foreign/sph-sc-lib/sph-sp/thread-pool.c", "symbols": ["sph_thread_pool_finish", "sph_thread_pool_worker", "sph_thread_finish"]}]}
{"id": "C115", "title": "Accuracy of the Fourier transform in double precision", "statement": "With doubles, and cosine and sine functions with an absolute error of at most d, sp_fft and sp_ffti of any length below 2^32 and any finite input with a sum of magnitudes s of at most 2^900 give finite results that differ from the exact transform by at most 16 n log2(4 n) (56 u + 3 d) s, where u is 2^-53, and for powers of two by at most 2 log2(n) (32 u + 3 d) s, plus a negligible term for underflow; if the working memory can not be allocated then the arrays are unchanged and the status is not 0. sp_ffti after sp_fft gives the input times n up to the errors of both.", "quantifier": "every length, every finite input, every sufficiently accurate cosine and sine, every outcome of the allocations", "why_tests_cant": "rounding errors of every input, length and mathematics library", "anchors": [{"file": "source/c/foreign/nayuki-fft/fft.c", "symbols": ["Fft_transform", "Fft_transformRadix2", "Fft_transformBluestein"]}, {"file": "source/c-precompiled/sph-sp/main.c", "symbols": ["sp_fft", "sp_ffti"]}]}
{"id": "C116", "title": "Uniform numbers and distinct sources", "statement": "For any three of the words of the state, every 64 bit number is the next result of sph_random_u64 for exactly one value of the remaining word that it is computed from, and every multiple of 2^-53 below 1 the next result of sph_random_f64 for exactly 2048 values, and every 32 bit number of sph_random_u32 for exactly 2^32 values; the same number argument holds for the integer in sph_random_f64_bounded. Four consecutive results of sph_random_u64 determine the state. States made by sph_random_state_new or sp_random_state_new from different seeds never give the same next four numbers, no matter how many numbers have been taken from both before, and no two words of a new state are equal.", "quantifier": "every state, every result, every pair of seeds, every number of calls before", "why_tests_cant": "2^64 results, 2^256 states and 2^128 pairs of seeds", "anchors": [{"file": "source/c/foreign/sph-sc-lib/sph-sp/random.c", "symbols": ["sph_random_u64", "sph_random_f64_bounded", "sph_random_f64", "sph_random_u32", "sph_random_state_new"]}, {"file": "source/c-precompiled/sph-sp/main.c", "symbols": ["sp_random_state_new"]}]}
{"id": "C117", "title": "Growable arrays are lists", "statement": "An array made by array3_declare_type behaves like the list of its elements over any sequence of additions while it is not full, removals while it is not empty, clearing, and resizing that succeeds or fails: creation reports whether memory was available, every element added is read back, array3_size, array3_unused_size, array3_full and array3_not_full are those of the list, a failed resize changes nothing, array3_data_last is the last element, and no access leaves the memory of the array, for any requested size.", "quantifier": "every element type, every size, every sequence of uses, every outcome of the allocations", "why_tests_cant": "all sequences, sizes up to 2^64 and failures", "anchors": [{"file": "source/c/foreign/sph-sc-lib/sph-sp/array3.h", "symbols": ["array3_declare_type", "array3_add", "array3_remove", "array3_data_last", "array3_declare_stack"]}, {"file": "source/c-precompiled/sph-sp/sequencer.h", "symbols": ["sp_memory_t"]}]}
{"id": "C118", "title": "Accuracy of filter kernels and sine tables in double precision", "statement": "With doubles, a cosine function with an absolute error of at most d and a sine function with an error of at most d times the smaller of 1 and its argument, sp_windowed_sinc_lp_hp_ir gives finite samples that differ from the exact kernel of n samples by at most 4 (n (3 d + 27 u) + 14 n^2 u), u being 2^-53, for every cutoff from 0 to 1/2, as long as this is at most 2; their sum differs from 1 (0 for high pass) by at most 30 n^2 u. n is the least odd number not below the rounded quotient of 4 and the transition. Every sample of a sine table of even size has an error of at most d + 16 u.", "quantifier": "every cutoff, transition, kind of filter and table size, every cosine and sine function with the accuracy", "why_tests_cant": "rounding errors of all steps for all parameters; the division by the sum could amplify them, and the argument of sinc can be arbitrarily small", "anchors": [{"file": "source/c-precompiled/sph-sp/filter.c", "symbols": ["sp_windowed_sinc_lp_hp_ir", "sp_windowed_sinc_lp_hp_ir_length", "sp_window_blackman"]}, {"file": "source/c-precompiled/sph-sp/main.c", "symbols": ["sp_sinc", "sp_spectral_inversion_ir", "sp_sine_period"]}]}
{"id": "C119", "title": "Accuracy of band filters and filtered streams in double precision", "statement": "With doubles and cosine and sine functions as in C118, and with E(n) = n (3 d + 27 u) + 14 n^2 u at most 1/2: sp_windowed_sinc_bp_br_ir gives, for cutoffs inside of the range, finite samples that differ from the exact band reject kernel (a low pass plus a high pass with aligned centers) by at most 4 (E(l) + E(h)) + 8 u, and from the exact band pass kernel (the convolution of a low pass and a high pass) by at most n (12 (E(l) + E(h)) + 40 n u), where n is the smaller of the lengths l and h. A stream of samples of at most m in magnitude that is filtered with sp_windowed_sinc_lp_hp or sp_windowed_sinc_bp_br in any division into calls is finite and differs from the convolution with the exact kernel by at most m (n e + 3 n^2 g u) + 2 n 2^-1022, for n kernel samples with errors of at most e and magnitudes of at most g (4 for low and high pass, 8 for band reject, 15 times the smaller length for band pass).", "quantifier": "every cutoff inside of the range, transition, stream, division into calls, and cosine and sine function with the accuracy", "why_tests_cant": "rounding errors of the kernel, of the overlapping parts and of all sums for arbitrarily long streams and all divisions of them", "anchors": [{"file": "source/c-precompiled/sph-sp/filter.c", "symbols": ["sp_windowed_sinc_bp_br_ir", "sp_windowed_sinc_lp_hp", "sp_windowed_sinc_bp_br", "sp_convolution_filter"]}, {"file": "source/c-precompiled/sph-sp/main.c", "symbols": ["sp_convolve", "sp_convolve_one"]}]}
{"id": "C120", "title": "Accuracy of statistics in double precision", "statement": "With doubles and n finite samples, 1 <= n < 2^32: sp_stat_samples_range gives the exact smallest and greatest sample, and their difference with at most one rounding error. sp_stat_samples_mean differs from the exact mean by at most 14 u times the sum of the magnitudes (u = 2^-53). sp_stat_samples_deviation gives a finite number of at least zero that differs from the exact standard deviation by at most 10 m sqrt(n u), where m bounds the magnitudes. sp_samples_scale_to_times, if the smallest sample is not positive, gives times in 0..max in the order of the samples, with 0 for the smallest and max for the greatest sample and every time at most 1/2 + 2^-18 away from the exact proportion. If all samples are equal, an infinity or not-a-number is converted to an integer, which is undefined behaviour.", "quantifier": "every finite array of doubles and every maximum, up to magnitudes near overflow", "why_tests_cant": "tests compare a few values with a tolerance; the bounds must hold for every array, also with cancellation", "anchors": [{"file": "source/c-precompiled/sph-sp/statistics.c", "symbols": ["sp_stat_samples_range", "sp_stat_samples_mean", "sp_stat_samples_deviation", "sp_samples_scale_to_times"]}]}
{"id": "C121", "title": "Arrays for events are released also when memory is short", "statement": "If a function allocates any number of arrays for an event with sp_event_malloc_srq, sp_event_samples_srq, sp_event_times_srq, sp_event_path_samples_srq, sp_event_envelope_zero_srq or their variants, and goes to its exit at the first failure, then freeing the event releases every array exactly once and nothing is lost.", "quantifier": "every number of arrays and every pattern of failing allocations", "why_tests_cant": "a test would have to make each single allocation fail at each number of arrays", "anchors": [{"file": "source/c-precompiled/sph-sp/sequencer.h", "symbols": ["sp_event_malloc_srq", "sp_event_alloc_srq", "sp_event_path_samples_srq", "sp_event_envelope_zero_srq", "sp_event_free"]}, {"file": "source/c-precompiled/sph-sp/sequencer.c", "symbols": ["sp_event_memory_add_with_handler", "sp_event_memory_free"]}]}
{"id": "C122", "title": "Accuracy of mixed waves in double precision", "statement": "With doubles and a table of sp_sine_period that is computed with a library sine as in C118: however many wave events with amplitudes of at most 1 are rendered by sp_seq, in whatever blocks, each output sample is finite and is the previous sample x plus the exact sum of the sines that sound at that time in that channel, each with its amplitude and with the phase from the sums of its frequencies, up to n (d + 19 u) + 2 n u (|x| + 2 n), where n is the number of sines that sound. A wave without modulation and with frequency f has f cycles in as many samples as the table has.", "quantifier": "every list of wave events, every division into blocks, every library sine with the stated accuracy, every previous content", "why_tests_cant": "audible errors would have to accumulate over phases and over many events; tests compare a few samples", "anchors": [{"file": "source/c-precompiled/sph-sp/sequencer.c", "symbols": ["sp_seq", "sp_wave_event_generate", "sp_wave_event_prepare"]}, {"file": "source/c-precompiled/sph-sp/main.c", "symbols": ["sp_sine_period"]}]}
{"id": "C123", "title": "Accuracy of a tone from the event to the file", "statement": "With doubles and a table of sp_sine_period that is computed with a library sine as in C118: when sp_render_range_file renders a wave event with amplitudes of at most 1 to a file, with whatever block size, and the file is opened (with the channel count set) and read with whatever calls of sp_file_read, then the calls give the rendered frames in order, as many as requested or left, and each sample is finite and is the exact sum of the sines of the event that sound at that time in that channel, up to n (d + 2^-23), where n is the number of sines that sound. Where nothing sounds the sample is exactly zero.", "quantifier": "every wave event, sound file size, block size, sequence of reads, library sine with the stated accuracy", "why_tests_cant": "the claim composes preparing, sequencing, conversion to 32 bit, the file format and reading for all of their inputs; tests render one file", "anchors": [{"file": "source/c-precompiled/sph-sp/main.c", "symbols": ["sp_render_range_file", "sp_sine_period"]}, {"file": "source/c-precompiled/sph-sp/sequencer.c", "symbols": ["sp_seq", "sp_wave_event_generate", "sp_wave_event_prepare"]}, {"file": "source/c-precompiled/sph-sp/file.c", "symbols": ["sp_file_open_read", "sp_file_read", "sp_file_write"]}]}
{"id": "C124", "title": "Copied paths are independent", "statement": "Paths made with spline_path_set_copy do not depend on the array they are made from or on each other: whatever copies, changes of the array, reads, calls of spline_path_free and releases of segments follow, each path gives the samples of the segments as they were when it was copied, each path can be freed, and what remains allocated is one array for each path whose segments were not released. A copy that fails for want of memory changes nothing.", "quantifier": "every array of segments, every sequence of copies, changes, reads and releases, every outcome of allocations", "why_tests_cant": "sharing shows only in histories with several copies and changes between them", "anchors": [{"file": "source/c/foreign/sph-sc-lib/sph-sp/spline-path.c", "symbols": ["spline_path_set_copy", "spline_path_set", "spline_path_get", "spline_path_free", "spline_path_path"]}]}
{"id": "C125", "title": "Accuracy of arithmetic on sample arrays in double precision", "statement": "With doubles: sp_samples_differences has one rounding error per element; element i of sp_samples_divisions is start / divisor^i within 2i units of roundoff while these numbers are not extreme; sp_samples_blend gives its inputs exactly for the fractions 0 and 1 and otherwise the exact blend within 4 units of roundoff of the greatest input, which can be outside of the inputs by that much; sp_samples_scale_sum scales each element and the sum within 28 n K units of roundoff, and K times that for the sum, where K is the ratio of the sum of absolute values to the absolute sum; sp_samples_set_gain and sp_samples_set_unity_gain scale by amp / m, where m is the peak without its fraction, with an error of at most 8 units of roundoff of the sample before plus the sample after, leave everything as it is for m = 0 or amp = 0, and give silence if amp is at most m / 2^55. Elements after the count are not touched.", "quantifier": "all arrays of finite doubles within the stated ranges, all counts up to 2^50, fractions, targets and amplitudes", "why_tests_cant": "rounding differs for every input; cancellation in the computation of a factor shows only for particular ratios", "anchors": [{"file": "source/c-precompiled/sph-sp/arrays.c", "symbols": ["sp_samples_differences", "sp_samples_divisions", "sp_samples_blend", "sp_samples_scale_sum", "sp_samples_set_gain", "sp_samples_set_unity_gain"]}, {"file": "source/c-precompiled/sph-sp/arrays-template.c", "symbols": ["sp_##type_name##_absolute_max", "sp_##type_name##_multiply"]}]}
{"id": "C126", "title": "Shapes, rounding amounts and blends of times in double precision", "statement": "With doubles: sp_triangle stays in 0..1 and differs from the exact triangle by at most 3 units of roundoff relative to it, so it is exactly 0 at the start of each period, but its peak can be the double before 1. sp_pan_to_amp has no rounding error for either of two channels and any value. sp_time_harmonize is between the time and the next multiple of the base, gives them exactly for the amounts 0 and 1, and otherwise the exact number without its fraction up to 2^-20. sp_times_blend and sp_times_mask give times between their two inputs, exactly the inputs for the fractions 0 and 1, and otherwise the nearest time up to 2^-18, and touch nothing after the count. sp_times_scale has no rounding error.", "quantifier": "all times whose sums are below 2^32, all periods, bases, arrays and counts, all fractions and amounts from 0 to 1, all finite pan values", "why_tests_cant": "a product with a rounded reciprocal can exceed 1 or miss an end point only for particular periods; truncation turns one rounding error into a whole step", "anchors": [{"file": "source/c-precompiled/sph-sp/main.c", "symbols": ["sp_triangle", "sp_pan_to_amp", "sp_time_harmonize"]}, {"file": "source/c-precompiled/sph-sp/arrays.c", "symbols": ["sp_times_blend", "sp_times_mask", "sp_times_scale"]}, {"file": "source/c-precompiled/sph-sp/arrays.h", "symbols": ["sp_time_interpolate_linear"]}]}
{"id": "C127", "title": "New arrays, copies and constant arrays", "statement": "sp_times_new and sp_samples_new (and sp_map_event_config_new_n) give a new array of zeros, sp_times_duplicate and sp_samples_duplicate a new array with the elements of the source, and sp_times_constant a new array with the value in each element: writing to it changes no other array, freeing it leaves everything as it was before. If there is no memory, a failure is returned, nothing is accessed, and the pointer of the caller is unchanged.", "quantifier": "every count, every source and pointer into it, every value, every other content of memory, every outcome of the allocation", "why_tests_cant": "all contents of memory, and failing allocations", "anchors": [{"file": "source/c-precompiled/sph-sp/arrays-template.c", "symbols": ["sp_##type_name##_new", "sp_##type_name##_duplicate"]}, {"file": "source/c-precompiled/sph-sp/arrays.c", "symbols": ["sp_times_constant"]}, {"file": "source/c-precompiled/sph-sp/sequencer.c", "symbols": ["sp_map_event_config_new_n"]}]}
