# Formal model of sph-sp in Rocq

The repository is a C library for sound synthesis and sequencing. The model in `rocq/theories` follows the C code
function by function; every definition cites the file and lines it models. Paths are abbreviated:
`P/` = `source/c-precompiled/sph-sp/`, `F/` = `source/c/foreign/sph-sc-lib/sph-sp/`, `fft.c` = `source/c/foreign/nayuki-fft/fft.c`.

## Modelling conventions

* **Memory.** An array is a `list`. Reads and writes go through `aget`/`aset`, which return `None` outside the array. `None`
  is "undefined behaviour" (out of bounds, division by zero, use after free); it is a distinct outcome, never a default value.
  Functions which mutate through a pointer return the new array. Where links matter (event list, queue) the heap is a finite map from addresses to nodes.
* **Integers.** `sp_time_t`/`sp_size_t` are 32 bit unsigned. Values are `Z` with the wrap `mod 2^32` (64 bit: `mod 2^64`) written
  into the model where the C code wraps. Array lengths and loop counters are `nat` (counters run below a length that is below 2^32).
* **Samples.** `sp_sample_t` is an IEEE double. Where a property is bit exact, the model is parametric in the sample type and in the
  operations, *without any law*, so the theorem covers IEEE doubles, NaN included. Where a property is about exact arithmetic
  (normalised gain, DFT, linear interpolation) the sample type is any commutative ring or field (or `Q`), given by section
  variables that are generalised in the theorem; rounding is then outside the model and this is said in the property's note.
* **External calls.** `malloc` is an oracle (a list of booleans, or a failing index) where allocation failure matters; elsewhere it succeeds.
  The random source is the modelled engine or an arbitrary function. User callbacks (`generate`, `prepare`, `ir_f`, ...) are arbitrary functions.
* **Threads.** Small step transition relation; theorems quantify over all reachable states of all schedules.
* Loops are `for`-combinators over `nat` or fuelled recursions whose out-of-fuel result is a distinct value excluded by the theorem.

Files: `Base.v` (monad, arrays, words), then for every area `XModel.v` (definitions only), `XSpec.v` (independent specification, when needed),
`XProofs.v` (lemmas) and `XProps.v` (theorems closed with `exact`, `Print Assumptions`, and a non-vacuity `Example` beside each).

## Plan per property

| id | model | proof |
|----|-------|-------|
| C01 | sp_convolve(_one) on lists, law-free ops | loop = fold over pairs; closed form of every cell |
| C02 | same | partition induction; carryover cell = partial fold |
| C03 | same, `None` outside buffers | totality of model under length contract; frame |
| C04 | filter state machine over abstract ir_f | induction over segments using C02 |
| C05 | same | refuted by a 3 call history; proved when the ir function never changes |
| C06 | filter state with heap of allocated addresses | invariant; refuted for failing ir_f on an existing state |
| C07 | kernels over stdlib reals | sum lemmas; the sum before scaling is positive by the inequality of Fejér and Jackson (sums of sin (k x) / k are positive between 0 and pi) and summation by parts with the decreasing half of the window |
| C08 | loops over a ring | index characterisation, involution, alternating sums |
| C09 | running sum over a ring | window invariant; refuted on the right edge without next |
| C10, C11 | heap of nodes with previous/next | representation predicate, refinement to sorted list insertion |
| C12, C13 | sp_seq over event list with arbitrary generate/prepare | induction over list and partition; trace semantics |
| C14 | futures as arbitrary order of event evaluations | commutation |
| C15 | loop of generator calls | tiling by division |
| C16 | array3 registry | invariant over op sequences |
| C17, C18 | groups | induction; nested tree induction |
| C19, C20 | wave event loops | phase invariant, closed form |
| C21-C24, C34 | template loops | pointwise characterisation |
| C22, C23, C30, C33 | same | refutations plus exact characterisation of what is written |
| C25 | digits | value function modulo base^size; enumeration |
| C26 | Heap's algorithm with s counters | induction on size; swap of copy arguments refuted |
| C27 | Kelleher loop | induction, successor in lexicographic order |
| C28, C29, C35, C36, C66 | loops | characterisation per index |
| C31 | Fisher-Yates over choice lists | bijection by counting |
| C32 | inversion search | counting |
| C37-C40 | xoshiro on 64 bit words | linear algebra by explicit inverse; Lemire counting |
| C41, C42 | quicksort with pivot index | partition invariants, strong induction |
| C43, C44, C56, C57, C58, C60, C61, C64 | direct | arithmetic |
| C45, C46 | file as bytes with a position | history invariant |
| C47 | render loops over sp_seq | refuted for start <> 0; proved for start = 0 |
| C48-C50 | radix-2 loops over a commutative ring with a root of unity; Bluestein | recursion on levels |
| C51, C52 | segments over Q | per segment characterisation; window refutation |
| C53-C55 | heap queue; thread pool transition system | invariants over schedules |
| C59, C62 | allocation oracle | refutation: status id 0 is success |
| C63 | callbacks | direct |
| C65 | bytes | direct |
| C67 | filter state with changing response lengths | overlap-add of segments; refuted when the tail does not fit |
| C68, C69 | groups and lists with failing prepare and allocation | refutations by a concrete state; proved otherwise |
| C70 | bytes of samples | permutation of 32 bit halves; refuted for samples |
| C71, C72, C73, C77, C79 | same models as their area | refutations plus exact characterisation |
| C74 | stdlib reals | closed form of the table |
| C75 | search loop with fuel over a random sequence | counting distinct outcomes; refuted for endless loops |
| C76, C78 | loops over Q | closed forms |
| C80 | curve drawing over Q with rounding | invariant of the drawing steps; refutations |
| C81-C83 | noise event configuration with one filter heap per channel, law-free samples | invariant over parts (filter history, random state, buffers) on top of C04/C05 |
| C84, C85 | loops over flat memory | loop invariants, law-free element types |
| C86 | rational result of the discrete selection | bounds of the quotient; refuted for the end of the range |
| C87 | settings as bytes through the filter state, kernels over stdlib reals | composition of C04, C05 and C07; refuted for a shared state |
| C88 | random functions as parameters, rationals | bounds of the shift; refuted for numbers above a multiple |
| C89 | outcome of a call: written array and status, both can be indeterminate | composition of C51 and C76; refuted for the general functions for all arguments |
| C90 | library variables and heap with failing allocations, tables over stdlib reals | case analysis on the failing part, composition of C73 and C74; refuted for the memory id 0 and for dangling pointers |
| C91 | register as array and index, elements of any type | stack semantics by induction on the uses, permutation |
| C92 | rationals | case analysis, induction on the arrays |
| C93 | file system as set of paths that other processes can grow at each system call | induction on the components of the path; refuted for relative paths and for a race |
| C94 | failures of opening and of each write as parameters, stream handles that can be null or closed | invariant: the list holds at most the element of the event; refuted for three kinds of failures |
| C95 | preparation, then C47 with block size 4 * rate | composition of C47 with the choice of the event end |
| C96 | files, counter, run commands with the file system at that time; strings with decimal numbers | injectivity of decimal numbers, induction on the plots; refuted for ten digit numbers |
| C97 | C48 with written magnitudes, allocation outcomes | composition with C48; refuted for failures |
| C98 | spline_path_beziern_generate with the cubic interpolation | loop invariant: positions up to the current one are written with points of the curve or means; steps are at most two positions |
| C99 | regions of memory with a live flag, registers of events, prepare and free functions of all event types, trees of events | the store as a list up to permutation; induction on the tree; refutations for all noise events, unprepared groups and copies |
| C100 | C99 with failing prepare functions, which work on a copy of the event | induction on the list; refutation by cases on the capacity of the register |
| C101 | futures, queue and threads of the pool for arbitrarily nested parallel groups, one transition for each step of a thread | invariant: queue and threads hold exactly the unfinished futures, futures wait for later ones only; weight: at most as many groups wait as there are; a measure decreases with every effective step. Refutation: threads take groups until all are held, groups that contain no others queue their events last |
| C102 | the calling thread and the evaluations of futures, with the life time of futures, blocks and events | invariant over schedules; refutation: the call returns while another event is still evaluated; both cases together are exhaustive |
| C103 | the seeds that noise events draw from the global generator, reading and writing its state as separate steps | induction on the order; refutation by the schedule in which all read before the first writes |
| C104 | ConfModel: the two default functions and new_n, combined with prepare and generate of EvModel and NoiseModel | the defaults meet the preconditions of the C19 and C81 theorems, the channel that is not used takes everything from the first; refuted for one output channel and for high rates |
| C105 | NameModel: the two functions as functions of group and id; a missing return statement gives no value | case analysis over all ids and groups |
| C106 | PendModel: start, end, size; segments_get with the array of the caller and the allocated copies of paths | induction over segments; preparation is idempotent except for arcs (the control point is an injective function of the curvature) |
| C107 | DblModel: sph_f64_sum on binary64 numbers (Flocq), with infinities and not-a-number | Fast2Sum is exact when the greater operand is subtracted; invariant: sum so far plus exact correction, error of the accumulated correction; general bound from the relative error of additions; refuted by evaluation for all exponents |
| C108 | DblModel: the conversion macros on binary64 numbers and 32 bit integers | monotonicity of rounding with a representable number between the value and the next integer; relative errors of division and product; integer division |
| C109 | DlineModel: the generators of doubles in random.c on binary64 numbers | all values are multiples of a power of two with at most 53 digits; for a range the number below the range is nearer than the range, except at the smallest normal number and below |
| C110 | DlineModel: spline_path_line_generate on binary64 numbers, with the conversion to size_t | the ratio is at most 1 - 2^-33, which outweighs the rounding errors of difference and product; monotonicity of rounding; loop invariant |
| C111 | ConvolveModel (any type of samples) with the binary64 operations | the samples are sums of products in a known order (C01, C02); relative error of products and of left to right sums by induction |
| C112 | DfileModel: the conversions between double and the 32 bit of a float, with FileModel of C45 and C46 | the bits of every float are decoded to the same number; rounding to nearest in the float format; the threshold of overflow from the tie to even |
| C113 | DmavModel: sp_moving_average (the model of C09 over any type of samples) with binary64 operations | the output is a running sum in a known order divided by the width; the error of each step is added by induction; absorption of small samples for the refutation |
| C114 | PoolModel: calls of finish can be made again after a call has returned | the invariants of C54 with the number of tasks that end threads as a lower bound; number of tasks made by finish per call |
| C115 | DfftModel: the transform of FftModel (over any type of numbers) with binary64 operations; cosine and sine are parameters with an error bound | error of the constant M_PI by Machin's formula; error of a twiddle factor; errors of a butterfly added by induction over the stages; for other lengths, the errors of three transforms and two products, with bounds of the exact intermediate values |
| C116 | RandModel (as C37) | inverse of the output function of a word; the second words of four consecutive states determine the state; injectivity of the seeding function and of the update |
| C117 | A3Model: the macros of F/array3.h on memory of whole elements | refinement to a list with a capacity by induction over the uses |
| C118 | DkerModel: the functions of KerModel with binary64 operations; cosine and sine are parameters with an error bound | error of the window; error of sinc by cases, tiny arguments and others; exactness of the center; C107 for the sum; the exact sum is at least 1 (C07), so that the quotient amplifies errors at most twice |
| C119 | DbandModel: the band kernels and the four wrappers of filter.c with binary64 operations, on FilterModel with doubles as samples | kernel samples are at most 1 and 2 (the exact sum is at least 1); differences of convolutions bounded by the number of overlapping samples; C04 for the division into calls, which needs no laws of arithmetic and so holds for rounded sums; C111 for rounding |
| C120 | DstatModel: range, mean, deviation and scaling of statistics.c with binary64 operations | the comparisons are exact; C107's bound for the compensated sum; a bound for each squared difference, the sum of non-negative terms, then the distance of square roots is at most the root of the distance; every step of the scaling is monotone, which gives the order, and the relative errors give the proportion |
| C121 | AllocModel: the macros that allocate and register, with an outcome for each allocation, on the memory of C99 | induction on the calls with the store as a list up to permutation; the register is full exactly at 0 and 4 times powers of two, from the invariant of C100 |
| C122 | no new model: EvModel's wave events and SeqModel's sp_seq with binary64 addition and multiplication | C19 and C12 need no laws of arithmetic, so they give the sums in their order of evaluation; then the bounds of C118 for the table, two products and C111's bound for sums; periodicity of the sine for the wrapped phases |
| C123 | no new model: RenderModel's sp_render_range_file with the wave events of EvModel and the conversions of DfileModel | the statements of C47 and C46 leave samples abstract, so they hold for doubles; then C122's bound for the rendered sample and C112's bound for the conversion |
| C124 | PcopyModel: a memory with arrays of segments by address, spline_path_set_copy and what users do with the paths, on PathModel and PendModel | refinement to a specification where each path is a value: an invariant relates addresses and values, induction on the uses |
| C125 | DarrModel: the functions of arrays.c:514-568 with doubles, including the peak that is converted to an integer | loop invariants for the arrays, error analysis with one relative error per operation, and a direct rounding argument for 1 - d = -d |
| C126 | DshapeModel: sp_triangle, sp_pan_to_amp, sp_time_harmonize, sp_times_blend, sp_times_mask and sp_times_scale with doubles | a lemma on k times the rounded 1 / n (1 + u rounds to 1), exact subtraction of near numbers, monotony of rounding for the ends, loop invariants for the arrays; scaled times are integers and the error is below 1/2 |
| C127 | DupModel: the functions on the memory of BlockModel, with the outcome of calloc as an argument | invariant of the copying loop: the elements so far, and all other arrays as before; direct computation for failures |

## What is modelled

| code | model | properties |
|------|-------|------------|
| P/main.c convolution (`sp_convolve`, `sp_convolve_one`) | ConvolveModel.v | C01-C03 |
| P/filter.c state, filter, free | FilterModel.v | C04-C06, C67 |
| P/filter.c window, sinc, kernels, spectral inversion and reversal | KerModel.v, DkerModel.v, DbandModel.v (doubles) | C07, C08, C118, C119 |
| P/filter.c `sp_windowed_sinc_lp_hp`, `_bp_br` and their `_ir_f` | SincModel.v, DbandModel.v (doubles) | C87, C119 |
| P/filter.c moving average | MavModel.v, DmavModel.v (doubles) | C09, C113 |
| P/sequencer.c event list, `sp_seq` | SeqModel.v | C10-C13, C69 |
| P/sequencer.c `sp_seq_parallel` | SeqParModel.v | C14 |
| P/sequencer.c `sp_seq_parallel` and `sp_group_generate_parallel` nested, with F/futures.c and F/thread-pool.c | NestModel.v | C101 |
| P/sequencer.c `sp_seq_parallel` with failures | ParFailModel.v | C102 |
| P/sequencer.c `sp_noise_event_prepare`, seeds drawn by several threads | SeedModel.v | C103 |
| P/sequencer.c groups | SeqGroupModel.v | C17, C18, C68 |
| P/sequencer.c event memory, block generation, wave events, map events | EvModel.v | C15, C16, C19, C20, C63 |
| P/sequencer.c, P/sequencer.h ownership of memory | ResModel.v, AllocModel.v (failing allocations) | C99, C100, C121 |
| P/sequencer.c noise events | NoiseModel.v | C81-C83 |
| P/arrays-template.c, P/arrays.c pointwise operations, search, digits, bits | ArrModel.v | C21-C25, C28-C30, C84, C85 |
| P/arrays.c shuffle, permutations, compositions, discrete random | CombModel.v, Arr2Model.v | C26, C27, C31, C32, C70, C75, C86 |
| P/arrays.c scaling, interpolation, conversion; P/main.c interleave; F/float.h | ScaleModel.v | C33-C36, C61, C66, C71, C76 |
| P/main.c numbers, waves, shapes; F/string.h | MiscModel.v, SineModel.v | C56-C58, C60, C64, C65, C72-C74 |
| F/random.c, `sp_normal_random` | RandModel.v | C37-C40, C77 |
| F/quicksort.h, P/statistics.c | SortModel.v, DstatModel.v (doubles) | C41-C44, C78, C79, C120 |
| P/file.c | FileModel.v | C45, C46 |
| P/main.c rendering | RenderModel.v, Render2Model.v | C47, C94, C95 |
| P/plot.c | PlotModel.v | C96, C97 |
| P/main.c blocks, F/helper.c, F/status.h | BlockModel.v | C59, C62 |
| fft.c | FftModel.v, DfftModel.v (doubles) | C48-C50, C115 |
| F/spline-path.c, P/path.c | PathModel.v, EnvModel.v | C51, C52, C80, C89, C98 |
| P/main.c sp_time_deharmonize | HarModel.v | C88 |
| P/main.c `sp_initialize`, `sp_deinitialize`, `sp_sine`, `sp_sine_lfo` | InitModel.v | C90 |
| F/memreg.h, F/float.c comparisons, F/filesystem.h | UtilModel.v | C91-C93 |
| F/queue.h | QueueModel.v | C53 |
| F/thread-pool.c | PoolModel.v | C54 |
| F/futures.c | FutModel.v | C55 |
| P/sequencer.c:467-490, 554-577 (default configurations) | ConfModel.v | C104 |
| P/main.c:67-126, F/helper.c:5-20 (names of failures) | NameModel.v | C105 |
| F/array3.h | A3Model.v | C117 |
| F/spline-path.c:45-57, 86-95, 108-129, 246-259 | PendModel.v | C106 |
| F/spline-path.c:98-105 (`spline_path_set_copy`) | PcopyModel.v | C124 |
| P/arrays.c:514-568 (doubles) | DarrModel.v | C125 |
| P/main.c:462-466, 476, 490-494, P/arrays.c:282-296, 360-371, P/arrays.h:6 (doubles) | DshapeModel.v | C126 |
| P/arrays-template.c:93, 133-141, P/arrays.c:269-277, P/sequencer.c:418 | DupModel.v | C127 |
| P/file.c:57, 112: the conversions of samples in IEEE arithmetic | DfileModel.v | C112 |
| F/float.h:6-21 and P/main.h:9, 27, 32, 63-70, 103 in IEEE double arithmetic | DblModel.v | C107, C108, C111 |
| F/random.c:7, 75-90, 125, 133 and F/spline-path.c:10, 142-156 in IEEE double arithmetic | DlineModel.v | C109, C110 |

## What is not modelled

* gnuplot and the formatting of numbers with decimals, display and printing functions.
* Rounding of IEEE doubles, except where a model is law-free in the sample operations (convolution, filter, sequencer, interleaving, waves,
  files, paths' bookkeeping): those theorems hold for doubles as they are, and where doubles are modelled (C107-C113, C115, C118-C120, C122, C123, C125, C126).
* The memory model of C11 threads: the thread models are sequentially consistent interleavings.
* The operating system: files are byte lists with a position, disk errors are an oracle for each write.
* Functions without return statement (`sp_path_samples2` and others): the returned status is modelled as indeterminate, also where the caller returns it on.

## Trusted base

* The kernel of Coq 8.16.1. No kernel check is switched off, there are no axioms, parameters, admitted proofs or open obligations in `rocq/theories`, no
  functors or module types, no plugins beyond those of the standard library (`lia`, `nia`, `lra`, `ring`, `field`, `psatz` produce terms the kernel checks; `vm_compute` is
  used for concrete examples and, in `cancel_all` (Dbl2Proofs.v), to evaluate one computation for each of 900 exponents; it is part of the kernel).
* C107 to C110 use the definitions and lemmas of the Flocq library for IEEE 754 binary64 numbers (`binary_float 53 1024`, round to nearest, ties to even). Flocq adds no axioms; its
  definition of the operations is trusted to be that of the processor: no extended precision, no fused multiply-add and no reordering by the compiler (`-ffast-math` would break this).
* `Print Assumptions` stands behind every theorem in the `*Props.v` files. Of the 779 theorems and examples there, 599 are "Closed under the global
  context". The other 180 depend on these axioms of the standard library's real numbers and on nothing else:
  `ClassicalDedekindReals.sig_forall_dec`
  `ClassicalDedekindReals.sig_not_dec`
  `Classical_Prop.classic`
  `FunctionalExtensionality.functional_extensionality_dep`.
  They are: `c07_band_instance`, `c07_band_pass`, `c07_band_range`, `c07_band_reject`, `c07_cutoff_range`, `c07_cutoff_range_instance`, `c07_dispatch`, `c07_dispatch_instance`, `c07_gain_symmetry`, `c07_instance`, `c07_length`, `c07_length_instance`, `c07_long_transition_refuted`, `c07_lp_hp`, `c07_zero_sum_undefined`, `c08_instance`, `c08_inversion`, `c08_inversion_response`, `c08_reversal`, `c08_reversal_any_length`, `c08_symmetric_response`, `c107_general_case`, `c107_general_partial`, `c107_nonnegative_case`, `c107_nonnegative_partial`, `c107_refuted`, `c107_refuted_case`, `c108_factor_case`, `c108_factor_partial`, `c108_factor_refuted`, `c108_radians_case`, `c108_radians_refuted`, `c108_rounding_case`, `c108_rounding_exception`, `c108_rounding_limit`, `c108_rounding_limit_case`, `c108_rounding_partial`, `c108_rounding_refuted`, `c108_times`, `c108_times_case`, `c108_units`, `c108_units_case`, `c109_bounded_case`, `c109_bounded_partial`, `c109_bounded_refuted`, `c109_bounded_refuted_case`, `c109_exact`, `c109_exact_case`, `c110_line`, `c110_line_case`, `c110_windows`, `c110_windows_case`, `c111_case`, `c111_level`, `c111_one`, `c111_stream`, `c112_again`, `c112_case`, `c112_error_partial`, `c112_exact`, `c112_file_case`, `c112_file_partial`, `c112_large_refuted`, `c112_nearest_partial`, `c112_order`, `c112_unit_range`, `c113_error`, `c113_error_case`, `c113_window_case`, `c113_window_lost`, `c115_fft`, `c115_fft_power_of_two`, `c115_instance`, `c115_inverse`, `c115_inverse_power_of_two`, `c115_round_trip`, `c118_instance`, `c118_kernel`, `c118_length`, `c118_sine_table`, `c119_band_outside`, `c119_band_pass`, `c119_band_reject`, `c119_bp_br_stream`, `c119_instance`, `c119_lp_hp_stream`, `c120_deviation`, `c120_deviation_case`, `c120_mean`, `c120_mean_case`, `c120_range`, `c120_range_case`, `c120_scale`, `c120_scale_case`, `c120_scale_equal`, `c120_scale_equal_case`, `c122_frequency`, `c122_instance`, `c122_mix`, `c123_instance`, `c123_tone`, `c125_blend`, `c125_blend_case`, `c125_blend_outside`, `c125_differences`, `c125_differences_case`, `c125_divisions`, `c125_divisions_case`, `c125_gain`, `c125_gain_case`, `c125_gain_kept`, `c125_gain_kept_case`, `c125_gain_silent`, `c125_gain_silent_case`, `c125_scale_sum`, `c125_scale_sum_case`, `c125_unity_gain`, `c125_unity_gain_case`, `c126_harmonize`, `c126_harmonize_case`, `c126_pan`, `c126_pan_case`, `c126_times_blend`, `c126_times_blend_case`, `c126_times_mask`, `c126_times_mask_case`, `c126_times_scale`, `c126_times_scale_case`, `c126_triangle`, `c126_triangle_case`, `c126_triangle_peak`, `c48_fft`, `c48_instance`, `c49_convolution`, `c49_instance`, `c49_inverse`, `c49_real_convolution`, `c49_round_trip`, `c50_instance`, `c50_permutation`, `c74_instance`, `c74_sine_period_even_partial`, `c74_sine_period_odd_refuted`, `c87_bp_br_settings_partial`, `c87_instance`, `c87_lp_hp_range`, `c87_lp_hp_settings_partial`, `c87_lp_hp_stream`, `c87_range_instance`, `c87_settings_instance`, `c87_switch_instance`, `c87_switch_refuted`, `c90_case`, `c90_cycle_partial`, `c90_deinitialize_refuted`, `c90_initialize_partial`, `c90_memory_refuted`, `c90_sine_partial`, `c95_plot_instance`, `c96_instance`, `c96_open_refuted`, `c96_plots_partial`, `c97_instance`, `c97_leak_refuted`, `c97_spectrum_partial`, `demo_bp`, `demo_finite`, `demo_junk_len`, `demo_large`, `demo_lp`, `demo_memory_length`, `demo_real`, `demo_sum`, `demo_tiny`, `length_3`, `length_9`, `memory_length`, `odd_length`, `sqrt_demo`, `tenth_ok`.
* The correspondence between the C text and the model, by reading. Every definition cites the lines it models and says where it simplifies.
* The precompiled C files are taken as the code; the S-expression sources in `source/sc` from which they are generated are not modelled.
* Constants of the default configuration: sample type double, time type 32 bit unsigned, two channels at most, 44.1 kHz sample rate where a concrete value is needed.

## Findings

Every item is a behaviour of the C text that contradicts what a user would rely on. Items with a theorem name are machine-checked on the
model by that theorem (for all inputs of a class where the theorem is quantified, else for a concrete witness); the others were found while reading and are stated as conditions or simplifications of the model.

**Allocation and status** (helper.c, status.h)
* `enum { sph_helper_status_id_memory }` is 0, the id of success, so every failing allocation is reported as success (`c59_failure_refuted`,
  `c59_caller_refuted`). The models that have an allocation outcome (filter, event memory, groups, blocks) describe the error paths as they are
  written, that is for a nonzero memory id; with the id in the code these paths are not taken and the null or uninitialised pointer is used instead.
* `sp_block_new`: with id 0 a failing allocation uses an uninitialised pointer or installs the previous channel twice, which is then freed
  twice (`c62_new_failure_refuted`). `sp_block_free` leaks blocks of size 0 (`c62_free_empty_refuted`).
* `sph_helper_status_description` and `_name` have no return statement.

**Filter** (filter.c)
* A state remembers the first response function and argument size for ever (`c05_stale_function_refuted`, `c05_stale_size_refuted`, for all functions and arguments).
* With one state for both streaming filters, a low pass requested again after a band pass with equal first bytes is filtered with the band pass
  (`c87_switch_refuted`).
* A failing response function leaves a freed response in the state: double free and use after free (`c06_failed_change_refuted`, for all histories); a failing
  second allocation leaks (`c06_allocation_failure_leak_refuted`).
* A response that shrinks by more than a segment loses the tail (`c67_shrinking_response_truncates_tail_refuted`).
* Transitions of 4 or more give a kernel that is 0/0 (`c07_long_transition_refuted`). Band kernels leak both partial kernels in the band pass case.
* The moving average without a next block continues with the negated start of the block (`c09_end_refuted`).

**Arrays** (arrays.c, arrays-template.c)
* `sp_*_reverse` writes one element behind (`c22_reverse_refuted`, `c22_reverse_out_of_bounds_refuted`).
* `sp_*_and` compares the first array twice (`c23_and_refuted`).
* `sp_times_permutations` copies in the wrong direction: the input is overwritten with zeros and all rows are zero (`c26_permutations_refuted`).
* `sp_times_compositions` wraps its size for a sum of 33 (`c27_compositions_33_refuted`).
* `sp_times_bits_to_times` and `sp_times_select` cannot be used in place as documented (`c28_bits_in_place_refuted`, `c28_select_in_place_refuted`).
* `sp_times_extract_in_range` filters nothing (`c30_extract_refuted`).
* `sp_times_scale_sum`, `sp_times_scale_y`, `sp_samples_scale_y`, `sp_samples_set_gain` miss their target (`c33_*_refuted`); the absolute maximum of
  samples is computed as an integer.
* `sp_samples_limit_abs` with a negative limit exceeds it (`c34_negative_limit_refuted`).
* `sp_samples_shuffle` permutes 32 bit halves of samples (`c70_samples_shuffle_refuted`).
* `sp_times_make_seamless_right` has an integer division in place of the fade, `_left` reads behind the array (`c71_*_refuted`).
* `sp_time_round_to_multiple` is the identity (`c72_round_to_multiple_refuted`, `c72_zero_refuted`); `sp_time_harmonize` goes to the next multiple above (`c60_harmonize_nearest_refuted`).
* `sp_times_random_discrete_unique` may never end and may leave the front unset (`c75_*_refuted`).
* `sp_time_random_discrete_bounded` can return `range`, which its comment excludes (`c86_time_end_refuted`), and divides by zero for a distribution of
  one number (`c86_time_one_refuted`).

**Statistics and sorting**
* quicksort reads the elements before and after the range (`c41_reads_outside_refuted`).
* The median of an odd number of elements is the element before the middle, of one element it is outside (`c42_odd_refuted`, `c42_single_refuted`).
* The mean of times wraps, the center of times counts the first element twice (`c43_*_refuted`).
* `sp_samples_scale_to_times` exceeds the maximum for positive samples and divides by zero for equal ones (`c79_*_refuted`).
* `sp_stat_unique_all_max` does not end for size 2^32 - 1.

**main.c, string.h, math**
* `sp_permutations_max` divides by n-k (`c56_permutations_max_refuted`). `sp_square` wraps for t >= 2^31 (`c58_square_wrap_refuted`). `sp_pan_to_amp`
  is wrong for channels above the second (`c58_pan_third_channel_refuted`). `sp_wave` applies amp twice without amod (`c73_wave_amplitude_refuted`). `sp_sine_period` is
  not one period for odd sizes (`c74_sine_period_odd_refuted`). `sp_normal_random` wraps (`c77_normal_random_refuted`).
* `ensure_trailing_slash` writes the terminator to the first byte (`c65_trailing_slash_refuted`).
* `sp_render_range_file` ignores start (`c47_start_refuted`); an early error closes an uninitialised file; block size 0 divides by zero.
* `sph_f64_sum` compares without absolute values, so the compensation is lost for mixed signs (not visible in exact arithmetic, C61).

**Files** (file.c)
* `sp_file_read` returns no status, `sp_file_open_read` does not set the channel count, a missing file is not detected, chunks behind the data are
  read as samples (`c46_*_refuted`). Writing zero frames reports an error. Header bytes 4 to 7 are uninitialised until the file is closed.

**Sequencer** (sequencer.c)
* `sp_group_append` moves the end before the list addition that can fail (`c68_failed_append_moves_end_refuted`).
* Preparing an empty event list yields an uninitialised pointer (`c69_prepare_empty_list_refuted`).
* Wave events: phase sums wrap at 32 bit (`c19_large_modulation_refuted`).
* `sp_seq` prepares a copy of an event and stores it only on success. What a prepare function has allocated leaks when it fails, and if the
  register had to grow, the old array is used after it has been freed (`c100_failure_refuted`).
* `sp_noise_event_prepare` never sets the free function of the event, so that `sp_noise_event_free` is not called and buffers and filter states
  leak (`c99_noise_refuted`). Groups set theirs in the prepare function, so that freeing an unprepared group frees nothing of its list
  (`c99_unprepared_refuted`).
* Noise events draw their seed from the global random state in whatever thread prepares them, and have
  temporary buffers of at most four seconds (`c82_large_call_refuted`, `c82_transition_refuted`). Filter settings are updated at every call,
  so modulated noise depends on block sizes (`c81_modulated_division_refuted`); the frequency is the one setting that is not inherited (`c83_frequency_refuted`). Frequencies
  are truncated to 16 bit, a transition of zero is undefined, and the first channel reads an uninitialised buffer if it is not marked as used.

**Threads** (queue.h, thread-pool.c, futures.c)
* Enqueuing a node twice loses nodes; dequeuing from an empty queue dereferences null.
* Enqueuing to a pool that is being destroyed is undefined; a pool of size 0 never runs a task; a failing `sph_thread_pool_finish` leaves threads running.
* `sph_future_deinit` destroys the mutex and the condition variable twice (`c55_deinit_refuted`), and initialising again creates no threads
  (`c55_reinit_refuted`). `finished` is a plain variable that two threads access.

**Paths** (spline-path.c, path.c)
* Points at fractional positions shift lines (`c51_fraction_refuted`, `c52_fraction_refuted`); windows that begin inside the previous window skip segments
  (`c52_overlap_refuted`); a path as segment of a path is never drawn (`c52_nested_refuted`).
* Curves: windows that begin inside a curve write before the output, late ones read uninitialised memory (`c80_window_refuted`); control points of steep falling or
  horizontal lines are on the wrong side (`c80_steep_refuted`, `c80_horizontal_refuted`); fractional positions leave gaps (`c80_fraction_refuted`).
* `sp_path_samples2` to `5`, `_c2` to `_c5` and the times versions have no return statement. `sp_path_samples` ignores the status of `spline_path_set`.
  So the status of these and of `sp_envelope_zero3` to `5` and `sp_envelope_scaled3` to `5` is indeterminate (`c89_status_refuted`).
  `sp_envelope_zero` and `_scaled` scale the wrong elements, read behind their arrays and never set the second y value, for every argument
  (`c89_general_refuted`). `sp_envelope_scaled_c3` to `_c5` are declared and not defined.
* `sp_time_deharmonize` takes the next multiple above for the nearest, like `sp_time_harmonize`: a number just above a multiple is hardly moved
  (`c88_nearer_further_refuted`); base 0 and 1 divide by zero.
* `sp_initialize`: the id of memory errors is 0, so a failing allocation of a sine table is not noticed and the null pointer is written to
  (`c90_memory_refuted`). After a failed `sp_initialize` the table pointers are left dangling and `sp_deinitialize` frees them again
  (`c90_deinitialize_refuted`).
* `ensure_directory_structure` frees the result of `dirname`, which is a constant string for a relative path without slashes
  (`c93_relative_refuted`). It tests errno for EEXIST before and not after mkdir, so that a directory created by another process in between is
  reported as a failure (`c93_race_refuted`).
* `sp_render_range_file` calls `sp_file_close_write` with a null stream when the file cannot be opened (`c94_open_refuted`) and with a closed
  stream when the header cannot be written (`c94_header_refuted`). After a failed write the event list is not freed (`c94_write_leak_refuted`).
  The progress output uses the invalid conversion `%\n` (not modelled). `sp_render_plot` does not free its block.
* Plot paths have room for nine digits only (`c96_paths_refuted`); a failing fopen is not checked (`c96_open_refuted`);
  `sp_plot_spectrum_to_file` leaks on failures (`c97_leak_refuted`).
* A window of `spline_path_get` that ends inside of a cubic curve writes one element after the end of the array, where the curve skips a position (`c98_window_refuted`).
* Parallel groups in parallel groups can block for ever: `sph_future_touch` in a thread of the pool waits without evaluating anything, and a thread that waits
  is lost for other tasks. With n threads this can happen exactly if there are n or more inner groups with events (`c101_parallel_groups_return_refuted`).
* `sp_seq_parallel` returns on the first failure without waiting for the other futures and frees their blocks and events while threads use them
  (`c102_failures_refuted`, for every failure of an event other than the last one and every failed block allocation but the first). If no event is active,
  malloc(0) may return a null pointer, which is then reported as a failure and frees all events (depends on the C library).
* Noise events in parallel groups draw their seeds from the global generator without a lock: all events of a group can get the same noise (`c103_noise_refuted`), and
  which event gets which seed depends on the schedule (`c103_order_refuted`).
* Default wave and noise configurations always have two channels: on an output with one channel they write to a channel that does not exist
  (`c104_wave_mono_refuted`). Frequencies are 16 bit numbers: from a rate of 131072 on default noise does not reach half the rate (`c104_noise_rate_refuted`).
* `sph_helper_status_description` and `sph_helper_status_name` have no return statement (`c105_refuted`); `sp_status_name` does not know `sp_s_id_eof`.
* `spline_path_set` overwrites the curvature of arcs with the control point: using the same segments again gives another curve (`c106_arc_refuted`). `spline_path_segments_get` frees
  paths in paths, so a second call uses freed memory (`c106_twice_refuted`). Paths in paths have length zero (`c106_nested_refuted`).
* `sph_f64_sum` (sp_samples_sum) compares values instead of magnitudes: with negative values the compensation is lost, 2^k - 2^k + 1 gives 0 (`c107_refuted`).
* `sp_rad_to_hz` multiplies with pi / 2 instead of dividing by 2 pi (`c108_radians_refuted`). `sp_factor_to_hz` truncates: 27 hertz at a rate of 96000 become 26 hertz
  (`c108_factor_refuted`). `sp_rate_duration` divides first: one second given as 7000 / 7000 has 91000 samples instead of 96000 (`c108_duration_refuted`).
  `sp_cheap_round_positive` gives 1 for the greatest double below 1/2 (`c108_rounding_refuted`). `sp_duration` needs a macro `_sp_rate` that the library does not define.
* `sph_random_f64_bounded` can return the excluded range itself for positive ranges up to 2^-1022 (`c109_bounded_refuted`).
* `sp_file_write` stores finite samples from 2^128 - 2^103 as infinite and reports success (`c112_large_refuted`; in C without the IEC 60559 annex the conversion is even undefined).
* `sp_moving_average` keeps a running sum that is never recomputed: after one loud sample 2^k the outputs are 0 for as long as the samples are equal and below 2^(k-53), although their mean is not 0 (`c113_window_lost`). The error is only bounded relative to the loudest sample of the block (`c113_error`).
* `sph_thread_pool_finish` called again after the threads have ended returns success without completing tasks that have been enqueued in between (`c114_later`), and leaks one task per thread (`c114_again`, `c114_instance`). Called with `discard_queue` after a waiting call it locks a destroyed mutex.
* `array3.h`: the size in bytes wraps, so an array of 2^60 elements of 16 bytes is created with no memory (`c117_large_refuted`); resizing to zero frees the memory with the
  GNU C library and keeps the pointer (`c117_resize_zero_refuted`); `array3_data_last` reads at the capacity instead of the number of elements
  (`c117_data_last_refuted`); `array3_declare_stack` does not set the number of elements (`c117_declare_stack_refuted`).
* The macros for arrays of events (`sp_event_malloc_srq`, `sp_event_samples_srq`, `sp_event_path_samples_srq`, ...) allocate first and register second: if the register cannot grow then the new array is lost (`c121_registration_refuted`). This can only happen for the first array and at 4, 8, 16, ... arrays.
* `spline_path_set_copy` copies segments, but a segment made with `spline_path_path` holds a pointer to its inner path, which the copy shares: `spline_path_free` on two
  copies of the same array frees the inner path twice (`c124_nested_refuted`). `spline_path_free` does not free the copied array itself (`c124_independent_partial`).
* `sp_samples_set_gain` computes its factor as `1 + (1 - d) / d` with d = peak / amp. This cancels for large d: the factor has an error of some units of roundoff of 1 instead of
  the factor itself, and for d of at least 2^55 all samples become 0 (`c125_gain`, `c125_gain_silent`). `amp / peak` would not. `sp_samples_blend` of two equal arrays can differ
  from both (`c125_blend_outside`).
* Because of the id of memory errors, `sp_times_duplicate`, `sp_samples_duplicate` and `sp_times_constant` use a pointer without a value whenever memory is short
  (`c127_failure_refuted`).
* The peak of `sp_triangle` is not always 1, because it multiplies by a rounded reciprocal: with 49 falling steps it is the double before 1 (`c126_triangle_peak`).
