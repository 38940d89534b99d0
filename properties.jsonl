{"id": "C01", "title": "Event schedule loses nothing and invents nothing", "statement": "The event schedule returned for a fully connected network contains, for every node, exactly one event of the requested type at every distinct requested broadcast/update instant of that node, and no other event; instants in the schedule are strictly increasing, so each instant appears once with all of its events.", "quantifier": "all numbers of nodes, all finite lists of (not necessarily sorted, possibly repeated) broadcast and update instants per node", "why_tests_cant": "The grouping loop has boundary cases (last event, ties running to the end of the list) whose combinations are unbounded; a test sees a handful of instant patterns.", "anchors": ["danse_toolbox/d_base.py:build_events_matrix", "danse_toolbox/d_base.py:events_groupping_check", "danse_toolbox/d_base.py:sort_simultaneous_events"]}
{"id": "C02", "title": "Broadcasts precede updates at the same instant", "statement": "At every instant of a fully connected schedule all broadcast events come before all update events, and within one kind the nodes appear in increasing index order; hence an update at instant t sees all data broadcast at instant t.", "quantifier": "all instant lists, all node counts", "why_tests_cant": "Depends on every possible interleaving of simultaneous events.", "anchors": ["danse_toolbox/d_base.py:sort_simultaneous_events", "danse_toolbox/d_base.py:build_events_matrix", "danse_toolbox/d_core.py:danse"]}
{"id": "C03", "title": "Topology-independent event order follows the tree", "statement": "At every instant of a topology-independent schedule the events come in the order tree formation, fusion, partial sum, relay, update; fusions and partial sums are visited from the leaves to the root, relays and updates from the root to the leaves, following the leaf-to-root ordering of the tree in force at this instant.", "quantifier": "all instant lists, all leaf-to-root orderings", "why_tests_cant": "Unbounded set of trees and of simultaneous-event patterns.", "anchors": ["danse_toolbox/d_base.py:sort_simultaneous_events", "danse_toolbox/d_base.py:build_events_matrix"]}
{"id": "C04", "title": "Topology-independent ordering keeps every event", "statement": "Sorting simultaneous events along a leaf-to-root ordering that lists every node exactly once neither drops nor duplicates an event; if the ordering misses a node, that node's events silently disappear from the schedule.", "quantifier": "all event groups, all orderings", "why_tests_cant": "Needs all trees and all event groups; a dropped event is silent.", "anchors": ["danse_toolbox/d_base.py:sort_simultaneous_events"]}
{"id": "C05", "title": "Sequential updating is round-robin", "statement": "With sequential node-updating, the nodes whose filters are actually updated (update events not flagged as bypassed), read in time order, are: the configured first node, then the next index, and so on cyclically modulo the number of nodes; never two nodes at one instant, and no node is skipped.", "quantifier": "all schedules, all first-node indices, all node counts, all minimum update distances, with or without clock offsets", "why_tests_cant": "The bypass state (last node, frame counter) is carried across an unbounded history.", "anchors": ["danse_toolbox/d_base.py:build_events_matrix"]}
{"id": "C06", "title": "Minimum number of frames between updates", "statement": "Between two instants at which some filter is updated there are at least updateEvery-1 other instants carrying update events, and the first updating instant is not before the updateEvery-th such instant; with simultaneous or asynchronous updating an instant carrying update events is bypassed only for this reason, so the distance is then exactly updateEvery.", "quantifier": "all schedules, all updateEvery values, all node-updating strategies", "why_tests_cant": "A counter carried over an unbounded history, reset conditionally.", "anchors": ["danse_toolbox/d_base.py:build_events_matrix"]}
{"id": "C07", "title": "Tree root equals updating node", "statement": "In topology-independent sequential operation with a tree re-formed at every update (updateEvery at most 1), the i-th filter update takes place while the tree in force is rooted at the node being updated, for every update up to the last tree formation. With updateEvery of 2 or more this fails.", "quantifier": "all per-node update instant lists (including different sampling rates), all start nodes", "why_tests_cant": "Relates two independently computed schedules over unbounded time.", "anchors": ["danse_toolbox/d_base.py:get_sequential_update_instants", "danse_toolbox/d_base.py:prep_evmat_build", "danse_toolbox/d_base.py:build_events_matrix"]}
{"id": "C08", "title": "Sequential tree-formation instants are well formed", "statement": "The sequential update instants derived from per-node update instants are strictly increasing, the i-th one is an update instant of node (start+i) mod n and is the earliest such instant after the previous one; the two returned lists have the same length whenever all nodes have the same last update instant. If the last instants differ the lengths can differ, which makes the subsequent masking fail.", "quantifier": "all non-empty per-node instant lists, all start nodes", "why_tests_cant": "Loop termination and length equality depend on arbitrary instant lists.", "anchors": ["danse_toolbox/d_base.py:get_sequential_update_instants", "danse_toolbox/d_base.py:prep_evmat_build"]}
{"id": "C09", "title": "Event instants lie on the node's own sample grid", "statement": "Every generated update/broadcast/fusion instant of a node is one of that node's sample instants; it is never earlier than the nominal instant unless the nominal instant lies beyond the recording, and no sample instant lies strictly between the nominal and the chosen one.", "quantifier": "all strictly increasing timestamp vectors, all start indices, separations and counts", "why_tests_cant": "All timestamp vectors and all nominal grids.", "anchors": ["danse_toolbox/d_base.py:generate_aligned_instants"]}
{"id": "C10", "title": "Efficient broadcasting instants", "statement": "With efficient few-sample broadcasting, each broadcast instant of a node is a positive multiple of L of its own sample periods, is the latest such instant not after the corresponding neighbour update instant (or the first one if none), and every neighbour update instant has a corresponding broadcast instant.", "quantifier": "all neighbour update instants, all L, all timestamp vectors long enough", "why_tests_cant": "Unbounded instant lists and clock ratios.", "anchors": ["danse_toolbox/d_base.py:prep_evmat_build"]}
{"id": "C11", "title": "Allocated iterations suffice", "statement": "In a run with exact sampling clocks the number of update events of a node never exceeds the number of filter-estimate slots allocated from the signal length, so no filter write is out of range.", "quantifier": "all signal lengths, frame sizes and hops", "why_tests_cant": "Floor/ceil off-by-one for all sizes.", "anchors": ["danse_toolbox/d_base.py:prep_evmat_build", "danse_toolbox/d_classes.py:DANSEvariables.init_from_wasn"]}
{"id": "C12", "title": "Synchronous runs never raise buffer flags", "statement": "In a network of synchronous nodes of equal sampling rate, a run flags no missing or surplus buffer samples with few-samples broadcasting (every update finds a frame at first and one hop afterwards). With whole-chunk broadcasting exactly the first update of each node flags the missing part of the frame (frame size minus hop), all later updates flag nothing.", "quantifier": "all network sizes, frame sizes, hops, broadcast lengths and signal lengths", "why_tests_cant": "End-to-end composition of schedule generation, ordering and buffering over an unbounded run.", "anchors": ["danse_toolbox/d_base.py:prep_evmat_build", "danse_toolbox/d_base.py:build_events_matrix", "danse_toolbox/d_classes.py:DANSEvariables.broadcast", "danse_toolbox/d_classes.py:DANSEvariables.process_incoming_signals_buffers"]}
{"id": "C13", "title": "Broadcast reaches exactly the neighbours", "statement": "A broadcast by node k appends the broadcast samples to the buffer reserved for k at each neighbour of k and changes no other buffer of any node.", "quantifier": "all topologies, all buffer contents, all broadcast lengths", "why_tests_cant": "All topologies and index mappings.", "anchors": ["danse_toolbox/d_classes.py:DANSEvariables.fill_buffers", "danse_toolbox/d_base.py:fill_buffers_td_few_samples"]}
{"id": "C14", "title": "Buffers are lossless FIFOs between updates", "statement": "For every history of broadcasts and updates, when node k updates, what it reads from neighbour q is the concatenation, in order, of everything q broadcast since k's previous update (or since start); nothing is lost, duplicated or reordered, and an update of k empties only k's buffers.", "quantifier": "all event histories over all topologies", "why_tests_cant": "Quantifies over all histories and interleavings.", "anchors": ["danse_toolbox/d_classes.py:DANSEvariables.fill_buffers", "danse_toolbox/d_classes.py:DANSEvariables.update_and_estimate", "danse_toolbox/d_classes.py:DANSEvariables.wipe_buffers"]}
{"id": "C15", "title": "Incoming frame has frame length and flags account for samples", "statement": "Whenever frame assembly succeeds, each incoming signal frame has exactly DFTsize samples and the buffer flag equals received minus expected samples; the total of the flags over a run equals the total number of samples received minus DFTsize minus one hop per later update; the newest received samples are always the last samples of the frame.", "quantifier": "all buffer lengths and contents, all iteration indices, all histories", "why_tests_cant": "Boundary arithmetic over all lengths and accumulated over histories.", "anchors": ["danse_toolbox/d_classes.py:DANSEvariables.process_incoming_signals_buffers", "danse_toolbox/d_classes.py:DANSEvariables.process_incoming_signals_buffers_centr"]}
{"id": "C16", "title": "Efficient broadcast accounting", "statement": "With efficient few-sample broadcasting, the number of samples sent at each broadcast is a multiple of L, never negative, and (when broadcast instants are multiples of L samples) the total sent up to an instant equals the number of sample periods elapsed, so no sample is skipped or sent twice.", "quantifier": "all broadcast instant sequences", "why_tests_cant": "Telescoping sum over arbitrary sequences.", "anchors": ["danse_toolbox/d_classes.py:DANSEvariables.get_buffer_size_for_efficient_bc", "danse_toolbox/d_classes.py:DANSEvariables.broadcast"]}
{"id": "C17", "title": "Centralised buffer slots are a bijection", "statement": "When raw sensor signals are exchanged, each ordered pair (receiver q, sender k) uses its own slot: slots of one receiver are exactly 0..n-2, different senders never share a slot and the order of senders is preserved. A broadcast of raw signals reaches every other node, in the sender's slot only; at an update the frames of the senders are assembled independently and stacked in the order of the nodes.", "quantifier": "all network sizes", "why_tests_cant": "All n, all pairs.", "anchors": ["danse_toolbox/d_classes.py:DANSEvariables.fill_buffers_centr", "danse_toolbox/d_classes.py:DANSEvariables.build_ycentr"]}
{"id": "C18", "title": "Broadcast and update chunk extraction", "statement": "The sample block handed to compression/update always has exactly DFTsize rows; it consists of the consecutive local samples ending right before the sample index of the event instant (minus the configured delay), preceded by zeros only when not enough samples exist yet.", "quantifier": "all signal lengths, instants, frame sizes and hops", "why_tests_cant": "Index arithmetic with negative indices; all positions.", "anchors": ["danse_toolbox/d_base.py:local_chunk_for_broadcast", "danse_toolbox/d_base.py:local_chunk_for_update"]}
{"id": "C19", "title": "Few-sample filtering equals linear convolution", "statement": "The samples produced by the few-samples extraction equal the corresponding samples of the full linear convolution of the impulse response with the signal, for every requested index.", "quantifier": "all filters, signals and index lists", "why_tests_cant": "Identity over all signal values and lengths.", "anchors": ["danse_toolbox/d_base.py:extract_few_samples_from_convolution", "danse_toolbox/d_base.py:danse_compression_few_samples"]}
{"id": "C20", "title": "Transformation back to the time domain is exact and real", "statement": "For an even frame size, transforming the non-negative-frequency half of the spectrum of a real frame back to the time domain returns the original frame; for arbitrary half spectra the result is real valued, and arrays with a wrong number of rows are rejected. The caller's array has its first and last rows replaced by their real parts.", "quantifier": "all real frames, all even frame sizes, all complex half spectra", "why_tests_cant": "A mathematical identity over a continuum of inputs.", "anchors": ["danse_toolbox/d_base.py:back_to_time_domain"]}
{"id": "C21", "title": "Weighted overlap-add reconstructs the signal", "statement": "With 50% overlap, equal windows and constant real fusion gains (identity included), successive whole-chunk compressions reproduce the fused local signal: after the first hop every broadcast sample equals the fused input sample delayed by the algorithmic latency, except directly after a silent block at positions where the window is zero. With three or more hops per frame, or with no overlap, the second non-silent broadcast fails.", "quantifier": "all signals, all even frame sizes, all windows with positive overlap-add norm", "why_tests_cant": "Depends on carried-over state through an unbounded number of frames.", "anchors": ["danse_toolbox/d_base.py:danse_compression_whole_chunk", "danse_toolbox/d_classes.py:DANSEvariables.ti_compression_whole_chunk"]}
{"id": "C22", "title": "In-network sum is the total at every node", "statement": "In topology-independent operation on any tree, after the partial-sum phase (leaves to root) and the relay phase (root to leaves) every node holds the sum over all nodes of the fused signals, and the signal it uses as network contribution is this sum minus its own, i.e. exactly the sum of all other nodes' fused signals.", "quantifier": "all rooted trees, all sibling orders, all fused signals", "why_tests_cant": "Unbounded family of trees; requires induction on tree structure.", "anchors": ["danse_toolbox/d_classes.py:TIDANSEvariables.ti_compute_partial_sum", "danse_toolbox/d_classes.py:TIDANSEvariables.ti_relay_innetwork_sum_upstream", "danse_toolbox/d_core.py:tidanse"]}
{"id": "C23", "title": "Tree orientation is correct", "statement": "Orienting a tree-shaped network towards a root gives every non-root node exactly one downstream neighbour (its parent on the path to the root), upstream neighbours exactly its other neighbours; the root has no downstream neighbour; the procedure terminates.", "quantifier": "all trees, all roots, all neighbour-list orders", "why_tests_cant": "Unbounded family of trees.", "anchors": ["siggen/classes.py:WASN.orientate"]}
{"id": "C24", "title": "Leaf-to-root ordering visits children before parents", "statement": "The leaf-to-root ordering computed when orienting a tree contains every node exactly once, grouped by distance to the root in decreasing order, with the root last; every node appears strictly before its downstream neighbour.", "quantifier": "all trees, all roots", "why_tests_cant": "Unbounded family of trees.", "anchors": ["siggen/classes.py:WASN.orientate"]}
{"id": "C25", "title": "Filter updates start late enough and never stop", "statement": "A node performs a filter update only at update events that are neither bypassed nor skipped, only after both correlation matrices have received more frames than the estimator has channels and the configured start time has been reached (unless enabled from the beginning by batch initialisation); once enabled, an estimator stays enabled for the rest of the run and is updated at every event that is neither bypassed nor skipped.", "quantifier": "all VAD sequences and histories", "why_tests_cant": "History dependent enable condition.", "anchors": ["danse_toolbox/d_classes.py:DANSEvariables.check_covariance_matrices", "danse_toolbox/d_classes.py:DANSEvariables.conditional_scm_updating", "danse_toolbox/d_classes.py:DANSEvariables.update_and_estimate"]}
{"id": "C26", "title": "Each frame updates exactly one correlation matrix", "statement": "At every update event a node's frame updates exactly one of the speech-plus-noise and noise-only correlation matrices, chosen by the VAD of the frame; the other one keeps its value; the update counters always add up to the number of frames processed. (Fails for the centralised estimator when the first frame is used as basis: its matrices are then gated by the node's own counters and a frame may enter neither.)", "quantifier": "all VAD sequences", "why_tests_cant": "Histories.", "anchors": ["danse_toolbox/d_classes.py:DANSEvariables.spatial_covariance_matrix_update", "danse_toolbox/d_classes.py:DANSEvariables.conditional_scm_updating"]}
{"id": "C27", "title": "Correlation matrices remain Hermitian positive semi-definite", "statement": "Starting from Hermitian positive semi-definite matrices, exponential averaging with any factor in [0,1] and any sequence of frames keeps both correlation matrices Hermitian and positive semi-definite.", "quantifier": "all frames, dimensions, averaging factors in [0,1], all histories", "why_tests_cant": "Continuum of values and unbounded histories.", "anchors": ["danse_toolbox/d_classes.py:DANSEvariables.spatial_covariance_matrix_update"]}
{"id": "C28", "title": "Filters are held when no update is due", "statement": "If an update event is bypassed or updating is not enabled, the filter estimate of the node for the next iteration equals its present estimate (given initial filters that are the same for all iterations; fails for 'random' initialisation, and for the centralised filter at events skipped but not bypassed); in a batch sequential run exactly one node changes its filter per iteration, in round-robin order.", "quantifier": "all histories, all node counts", "why_tests_cant": "Histories.", "anchors": ["danse_toolbox/d_classes.py:DANSEvariables.perform_update", "danse_toolbox/d_classes.py:DANSEvariables.update_and_estimate", "danse_toolbox/d_core.py:danse_batch"]}
{"id": "C29", "title": "External filter relaxation", "statement": "At every update event external fusion filters move towards their target by the convex combination given by the averaging factor; the target moves only when the configured interval has elapsed since its last move, by the convex combination given by the relaxation factor, so both stay within the bounds of the values they come from; without relaxation the external filter is the new internal filter at once; filters do not move when already at the target.", "quantifier": "all histories, targets, relaxation factors in [0,1], intervals", "why_tests_cant": "Real-valued inputs, histories.", "anchors": ["danse_toolbox/d_classes.py:DANSEvariables.update_external_filters"]}
{"id": "C30", "title": "Speech and noise components add up", "statement": "Re-running the algorithm on the speech-only and noise-only signals with the filters saved from the full run gives outputs (DANSE and local estimates) whose sum is the output for the mixture, sample by sample and node by node, for any schedule, window, broadcast length and saved filters, when sampling-rate-offset estimates are the same in all runs (oracle or none). This holds for few-samples broadcasting; for whole-chunk broadcasting it holds as long as no node sends a silent block in one of the runs only, and fails when one component is silent over a frame.", "quantifier": "all signals, all filters, all schedules", "why_tests_cant": "Superposition over a continuum of inputs and unbounded runs.", "anchors": ["danse_toolbox/d_core.py:generate_signals_for_snr_computation", "danse_toolbox/d_base.py:danse_compression_whole_chunk", "danse_toolbox/d_base.py:danse_compression_few_samples", "danse_toolbox/d_classes.py:DANSEvariables.update_using_pregiven_filters"]}
{"id": "C31", "title": "Filter update solves the normal equations", "statement": "Each non-GEVD filter update returns a vector w with Ryy w = (Ryy - Rnn) e_ref whenever Ryy is invertible, independently at each frequency; scaling both matrices by the same non-zero factor does not change w.", "quantifier": "all invertible matrices, all frequencies", "why_tests_cant": "Continuum of matrices.", "anchors": ["danse_toolbox/d_classes.py:update_w", "danse_toolbox/d_base.py:perform_update_noforloop"]}
{"id": "C32", "title": "Parameter validation of broadcasting", "statement": "For a positive DFT size, construction of a parameter set succeeds exactly if window, estimator, simulation and compensation names are among the documented ones and, for few-samples broadcasting with a given length, that length is non-zero, not larger than the hop and divides it; accepted whole-chunk sets broadcast exactly one hop, and an omitted few-samples length becomes 1. (The further claims that the length is positive, that an unknown broadcast type is rejected, and that the default length fits the hop are false of the code and refuted.)", "quantifier": "all DFT sizes, overlaps, broadcast lengths and types", "why_tests_cant": "All integers.", "anchors": ["danse_toolbox/d_base.py:DANSEparameters.__post_init__"]}
{"id": "C33", "title": "Divisor enumeration", "statement": "The helper enumerating divisors yields every positive divisor of n exactly once and nothing else, for every n >= 1.", "quantifier": "all positive integers", "why_tests_cant": "All integers.", "anchors": ["danse_toolbox/d_base.py:get_divisors", "danse_toolbox/d_base.py:prime_factors", "danse_toolbox/d_base.py:prod"]}
{"id": "C34", "title": "Network adjacency is symmetric and irreflexive", "statement": "For every built-in topology and every accepted user-defined one the neighbour lists are symmetric (q neighbour of k iff k neighbour of q), irreflexive, sorted and duplicate free, and contain exactly the pairs the topology prescribes (all, closer than the distance, drawn, marked in the matrix); a user matrix is accepted iff it has the right shape, is binary and symmetric, and is rejected with ValueError otherwise. There is one list per node provided the last node has a sensor (refuted without that).", "quantifier": "all node counts, all adjacency matrices", "why_tests_cant": "All matrices.", "anchors": ["siggen/utils.py:get_topo"]}
{"id": "C35", "title": "Sensors are partitioned among nodes", "statement": "The sensor-to-node map assigns sensors to nodes in contiguous ascending blocks whose sizes are the configured sensor counts, so the selection for node k is exactly k's sensors and node selections partition all sensors.", "quantifier": "all sensor-count lists", "why_tests_cant": "All lists.", "anchors": ["siggen/classes.py:AcousticScenarioParameters.__post_init__", "siggen/utils.py:build_wasn"]}
{"id": "C36", "title": "Source signals are looped to the requested duration", "statement": "A source signal shorter than the requested duration is repeated periodically and truncated: sample i of the result is sample i mod len of the original and the result has exactly the requested length; a longer one is truncated; an empty source never terminates.", "quantifier": "all non-empty signals, all lengths", "why_tests_cant": "All lengths; termination.", "anchors": ["siggen/utils.py:_get_source_signal"]}
{"id": "C37", "title": "Per-frame VAD", "statement": "The per-frame VAD flags frame i as active iff the frame (starting at i times the shift) lies within the signal and at least the given proportion of its samples is active; the number of entries is the smaller of the number of shifts in the signal and one more than the number of complete frames.", "quantifier": "all VAD sequences, frame lengths, shifts, proportions", "why_tests_cant": "All sequences.", "anchors": ["siggen/classes.py:get_vad_per_frame"]}
{"id": "C38", "title": "Key time of the first utterance", "statement": "The reported end of the first utterance is the first speech-to-silence transition followed by a silence of at least the minimum duration after which speech resumes; the reported beginning of the second utterance is where it resumes; shorter pauses are skipped; an error is raised exactly if there is no such pause. (A final silence, however long, does not count: refuted.) The beginning of the first utterance is the first active sample.", "quantifier": "all VAD sequences, all minimum durations", "why_tests_cant": "All sequences.", "anchors": ["siggen/classes.py:Node.get_key_time"]}
{"id": "C39", "title": "Oracle VAD", "statement": "With a window of at least two samples, the energy-based VAD marks sample i active iff the mean energy over the window of the configured length centred at i, clipped at the signal borders, exceeds the threshold; it has the length of the input, is unchanged when signal and threshold are scaled consistently (so with the threshold set relative to the peak it does not depend on the level at all), and is monotone decreasing in the threshold. Windows shorter than two samples, including a non-positive window length, raise a ZeroDivisionError on every non-empty signal.", "quantifier": "all signals, window lengths and thresholds", "why_tests_cant": "Continuum of inputs.", "anchors": ["siggen/utils.py:oracleVAD", "siggen/utils.py:get_vad"]}
{"id": "C40", "title": "Noise is added at exactly the requested SNR", "statement": "When a unit-power noise is scaled and added for a requested SNR, the ratio of signal power to added noise power is exactly the requested value.", "quantifier": "all signals with non-zero power, all noises with non-zero power, all SNR values", "why_tests_cant": "Continuum of inputs.", "anchors": ["siggen/utils.py:apply_noise"]}
{"id": "C41", "title": "Microphone array rotation is a rigid motion", "statement": "Rotating an array to a target direction preserves all distances between microphones and maps the reference axis onto the target direction, whenever the target is not parallel to the reference axis.", "quantifier": "all points and all non-parallel target vectors", "why_tests_cant": "Continuum of inputs.", "anchors": ["siggen/utils.py:rotate_array_yx"]}
{"id": "C42", "title": "Delay line delays by its length", "statement": "Writing then reading a delay buffer of length n returns, for every sequence of writes, the value written n-1 writes ago (zero before that); reading before writing returns the value written n writes ago.", "quantifier": "all lengths and all write sequences", "why_tests_cant": "All histories; circular-pointer wrap-around.", "anchors": ["dxcpphat/delay_buffer.py:DelayBuffer"]}
{"id": "C43", "title": "Online resampler stays in bounds with two blocks of latency", "statement": "Whatever the sampling-rate-offset estimates fed in, the online resampler never reads outside its input buffer, always outputs one block per input block, and its accumulated shift stays within one block. As long as the shift rounds to a number within one block, each output block is the fading end of the segment read for the block before plus the fading-in beginning of the segment read for this one, each segment being the band-limited interpolation of two blocks of the input at the sum of the rate offsets so far and the time offset, two blocks late. With zero offset the output therefore is the input delayed by exactly two blocks, a constant integer time offset m within one block shifts it by exactly m more samples, and after a jump of an integer time offset the output fades from the old to the new delay within one block. The returned block is a view of the internal buffer, overwritten by the next call.", "quantifier": "all input block sequences, all offset sequences", "why_tests_cant": "Histories; clamping of accumulated time offset.", "anchors": ["dxcpphat/online_resampler.py:OnlineResampler"]}
{"id": "C44", "title": "SRO controller output is bounded", "statement": "The closed-loop sampling-rate-offset estimate of the simple controller stays within +-100 ppm for every input, and the estimator state is refreshed exactly once every FFTshift/FrameSize input frames, each time from the FFTsize most recent samples of the zero-padded input; with frames larger than the FFT shift it is never refreshed.", "quantifier": "all input sequences", "why_tests_cant": "Histories.", "anchors": ["dxcpphat/sro_estimation.py:CL_DXCPPhaT_Simple", "dxcpphat/sro_estimation.py:DXCPPhaT.process_data"]}
{"id": "C45", "title": "Accepted topologies are trees with consistent delays", "statement": "A hierarchical topology is accepted by the verification iff it is well formed: non-empty levels, one branch at the first, branches of at least two whitelisted nodes, no node twice within a level, every asynchronous node a leaf of exactly one branch and the tree root of none, and every later branch root a leaf of the preceding level (or the tree root at the second level). The delay assigned to a node equals its level times the per-level delay, i.e. one level more than its reference's when that is not the tree root. Leaves of the tree root at the first and second level get different delays although they have the same reference.", "quantifier": "all topology dictionaries", "why_tests_cant": "All topologies.", "anchors": ["dxcpphat/demo_utils.py:verify_topology", "dxcpphat/demo_utils.py:get_async_node_delays", "dxcpphat/demo_utils.py:get_unique_node_list"]}
{"id": "C46", "title": "Configuration loading only changes what the file says", "statement": "Loading parameters from a YAML file changes exactly the fields present in the file, at every nesting level, and leaves every other field at its present value; a string starting and ending with square brackets becomes the list it denotes, and a list becomes an array where the field is declared as an array. Unknown sections and unknown list-valued names raise an error, unknown names of other values are silently added as attributes.", "quantifier": "all nested configurations and files", "why_tests_cant": "All nestings.", "anchors": ["danse_toolbox/dataclass_methods.py:load_from_yaml"]}
{"id": "C47", "title": "Configuration comparison", "statement": "The equality helper for two parameter objects of the same class returns true exactly when their fields agree, with arrays of the same shape compared up to the tolerance 1e-8 + 1e-5|first|; it is reflexive and, for objects without arrays, is equality (hence symmetric). With arrays it is neither equality nor symmetric, and attributes only the second object has are ignored.", "quantifier": "all parameter objects", "why_tests_cant": "All nestings; asymmetric iteration.", "anchors": ["danse_toolbox/dataclass_methods.py:dataclasses_equal"]}
{"id": "C48", "title": "Results folder is never overwritten without consent", "statement": "The export-folder check lets a run go ahead into a non-empty folder only if exports are bypassed, overwriting is enabled or the user's first valid answer is yes; the only changes it makes are creating a missing folder and, after such a yes, deleting the deletable entries; after a no the folder is untouched.", "quantifier": "all folder states, flags and user answers", "why_tests_cant": "All answers / states.", "anchors": ["danse_toolbox/d_classes.py:check_export_folder"]}
{"id": "C49", "title": "Dynamic metric chunks stay inside the signal", "statement": "Every chunk used for time-varying metrics lies inside the signal and has the configured length, no chunk that fits is left out, and the computation ends for every overlap. Chunk c starts at the integer part of c steps of (1 - overlap) chunk sizes, so starts advance by a constant number of samples when the step is whole and to within one sample otherwise. The computation succeeds for overlaps in [0, 1) with a whole step or an overlap of at least one sample; smaller overlaps can raise an IndexError, and result arrays can be longer than the lists of chunks and time stamps.", "quantifier": "all signal lengths, chunk durations, overlaps", "why_tests_cant": "All sizes; termination.", "anchors": ["danse_toolbox/d_eval.py:get_dynamic_metric"]}
{"id": "C50", "title": "Exported audio fits 16-bit range", "statement": "Normalising a signal to 16-bit integers yields the samples scaled so that the maximum becomes half of the 16-bit maximum, truncated towards zero, inside the 16-bit range, with their signs and their order, provided the maximum is positive and no sample is below minus twice the maximum. Larger negative peaks wrap around, and signals without positive samples change sign.", "quantifier": "all real signals", "why_tests_cant": "Continuum of inputs.", "anchors": ["danse_toolbox/d_post.py:normalize_toint16"]}
{"id": "C51", "title": "SRO compensation addresses the right channels", "statement": "Phase-shift compensation for neighbour q multiplies exactly the channel of neighbour q in the extended observation vector, by the delay accumulated from the drifts and offset estimates of q; local channels are never changed; an undefined drift asks to skip the update. In the centralised vector the offset estimates of node q go exactly to the sensors of q, and so do the drifts for nodes listed before the node itself and, with equal sensor counts, for all but the further sensors of the last node; otherwise drifts reach wrong sensors.", "quantifier": "all neighbour sets and sensor counts", "why_tests_cant": "All index maps.", "anchors": ["danse_toolbox/d_classes.py:DANSEvariables.compensate_sros"]}
{"id": "C52", "title": "Mixture decomposition", "statement": "For every node, at every sensor, the noisy signal equals the clean speech plus the noise-only signal plus the difference between the self-noise of that sensor and the self-noise of the first sensor (resampling that respects sums; no diffuse noise or no sampling-rate offset). So the mixture decomposes exactly at the first sensor; it does not at other sensors, and not in the versions without offsets, which use a different self-noise.", "quantifier": "all signals, all sensor counts", "why_tests_cant": "Continuum of inputs.", "anchors": ["siggen/utils.py:build_wasn"]}
{"id": "C53", "title": "Network-wide filters reproduce node outputs", "statement": "Applying the reconstructed network-wide filter of a node to all sensor signals gives the average over the bins of the node's output on its local signals and the signals fused by the other nodes (each, or summed in the topology-independent variant), with the coefficients of the received signals taken one iteration earlier. It therefore reproduces the node's output once these coefficients no longer change, and not while they change.", "quantifier": "all filters and signals, all network sizes", "why_tests_cant": "Continuum of inputs; index bookkeeping.", "anchors": ["danse_toolbox/d_post.py:compute_netwide_danse_filts"]}
{"id": "C54", "title": "Local microphone index of the reference", "statement": "The conversion of a global sensor index into the index inside its node returns a valid local index designating the same physical sensor. (False of the code, which looks the microphone number up among node numbers: proved right exactly when every earlier node has a single sensor, refuted otherwise.)", "quantifier": "all sensor-to-node maps, all global indices", "why_tests_cant": "All maps.", "anchors": ["siggen/utils.py:refMicIdxLocal", "siggen/classes.py:AcousticScenarioParameters.__post_init__"]}
{"id": "C55", "title": "Silent-frame removal keeps signals aligned", "statement": "Removing silent frames keeps or drops each frame simultaneously in clean and processed signal: the frames kept are those whose windowed level in the clean signal is within the dynamic range of all others. Both outputs have equal length and are the overlap-add of exactly these frames. When nothing is dropped (hop of half a frame), both signals are reproduced at the positions covered by two analysis windows up to one common gain, which differs from 1 by at most pi/(2(L+1)) for frames of L samples.", "quantifier": "all signal pairs of equal length", "why_tests_cant": "Continuum of inputs, all lengths.", "anchors": ["danse_toolbox/mypystoi/utils.py:remove_silent_frames"]}
{"id": "C56", "title": "Sampling-rate-offset timestamps", "statement": "Resampling a node's signals for a sampling-rate offset keeps the number of samples (padding with zeros if the resampler returns fewer) and yields timestamps n/fs of the offset clock for every sample, padded or not, strictly increasing from zero; without offset, signals are unchanged.", "quantifier": "all signals and offsets", "why_tests_cant": "Continuum of inputs.", "anchors": ["siggen/utils.py:resample_for_sro", "siggen/utils.py:build_wasn"]}
{"id": "C57", "title": "Full-rank GEVD update equals the plain update", "statement": "With the rank set to the number of channels, the GEVD-based filter update gives the same filter as the plain update for the same correlation matrices; with a lower rank the filter is a combination of as many leading generalised eigenvectors as the rank.", "quantifier": "all matrices, dimensions, decompositions with non-zero eigenvalues", "why_tests_cant": "Tests compare a few random matrices numerically; the identity is algebraic and holds for every decomposition, including repeated eigenvalues.", "anchors": ["danse_toolbox/d_classes.py:update_w_gevd", "danse_toolbox/d_classes.py:update_w"]}
{"id": "C58", "title": "SNR at a reference microphone is exactly the requested one", "statement": "When the noise level is set for a requested SNR at a reference microphone, the ratio between the energy of all desired sources as received there and the energy of the scaled noise as received there is exactly the requested SNR, whatever the impulse responses.", "quantifier": "all impulse responses, source signals, noises and SNR values with non-zero received energies", "why_tests_cant": "Ratios after filtering depend on every impulse response and signal; a test sees finitely many and with floating-point tolerance.", "anchors": ["siggen/utils.py:build_wasn", "siggen/utils.py:203-222"]}
{"id": "C59", "title": "Offset controller silent during its start delay", "statement": "The closed-loop controller outputs an offset estimate of zero for the first start_delay+2 frames whatever the measurements, and as long as every later frame is either unusable (activity flag 0) or shows no residual offset; the first measurement after the start delay acts one frame later, with the gain of the controller.", "quantifier": "all start delays, controller coefficients and measurement sequences", "why_tests_cant": "Holds for every sequence of measurements and every delay; tests run a few.", "anchors": ["dxcpphat/sro_estimation.py:CL_DXCPPhaT.process"]}
{"id": "C60", "title": "Channels fed to the offset estimator are aligned", "statement": "While the offset estimate is zero, the two channels the closed-loop controllers pass to the estimator at every step are exactly the two channels of the input two steps earlier (silence for the first two steps): the resampler and the delay line introduce the same latency.", "quantifier": "all block sizes and all input sequences", "why_tests_cant": "Relates two stateful components over unbounded histories.", "anchors": ["dxcpphat/sro_estimation.py:CL_DXCPPhaT.process", "dxcpphat/online_resampler.py:OnlineResampler", "dxcpphat/delay_buffer.py:DelayBuffer"]}
{"id": "C61", "title": "Correlation matrices are weighted averages over exactly the frames of their kind", "statement": "At any time of an online run, the speech-plus-noise matrix of an estimator is the exponentially weighted average of the correlations of exactly the frames its VAD marked as speech, and the noise matrix of exactly the other frames: the frame followed by a others of its kind weighs (1-beta)*beta^a, the initial matrix beta^m, and the weights add up to one (the first frame takes the place of the initial matrix if so configured). In batch mode each matrix is the plain average over the frames of its kind, decisions beyond the last frame are ignored, and a VAD with fewer decisions than frames is refused.", "quantifier": "all histories, frames, VAD patterns, averaging factors, dimensions", "why_tests_cant": "Unbounded histories of real-valued frames and all VAD patterns.", "anchors": ["danse_toolbox/d_classes.py:DANSEvariables.spatial_covariance_matrix_update", "danse_toolbox/d_classes.py:update_covmats_batch"]}
{"id": "C62", "title": "Every batch update is the best choice available to the node", "statement": "In batch DANSE and TI-DANSE, sequential or simultaneous, at every update the filter a node ends up applying to all the network's sensors (its own coefficients plus the received fused signals traced back to the sensors) has the smallest estimated mean squared error among all filters the node could have chosen for the signals it receives, including its previous one; it is at least as good as any filter on its own sensors (so never worse than the local estimator, itself the best filter on these sensors) and never better than the centralised filter when all nodes share the VAD.", "quantifier": "for all numbers of nodes, sensors, neighbours, frames, iterations; all signals, VADs, initial filters; every frequency where the node's correlation matrix is inverted; all broadcast modes", "why_tests_cant": "Optimality is a statement about all competing filters and all signals; a run only compares a few numbers, with errors close to each other.", "anchors": ["danse_toolbox/d_base.py:2473-2542", "danse_toolbox/d_batch.py:29-50", "danse_toolbox/d_batch.py:127-139", "danse_toolbox/d_core.py:287-328", "danse_toolbox/d_core.py:397-438", "danse_toolbox/d_classes.py:1627-1694"]}
{"id": "C63", "title": "With one source the error of sequential batch DANSE never grows", "statement": "With a single desired source heard at all reference sensors and a common VAD, in sequential batch DANSE (fully connected) and TI-DANSE the estimated error of the updating node, relative to the power of the source at its reference sensor, does not grow from one update to the next although another node updates for another reference; it stays at or above that of the centralised filter of any node.", "quantifier": "for all numbers (two or more) of nodes, sensors, frames, iterations; all signals with a rank-one speech correlation at the frequency; initial external filters that agree with the internal ones", "why_tests_cant": "Monotonicity over all iterations depends on what each node sends being exactly the filter it adopted; a stale or mis-indexed filter mostly still decreases the error in a given example.", "anchors": ["danse_toolbox/d_core.py:287-313", "danse_toolbox/d_core.py:397-424", "danse_toolbox/d_base.py:2473-2542", "danse_toolbox/d_classes.py:1627-1694"]}
{"id": "C64", "title": "The centralised filter is a fixed point of batch DANSE", "statement": "With a single desired source and a common VAD, if the nodes' filters are (up to factors) the parts of the centralised filters that concern their own sensors, every later update, sequential or simultaneous, DANSE or TI-DANSE, makes the updating node apply exactly its centralised filter to the network's sensors.", "quantifier": "for all numbers of nodes, sensors, frames, iterations, all such signals, all non-zero factors, every frequency where the matrices are inverted", "why_tests_cant": "A run approaches the limit but never starts from it; that it is a fixed point, for every network and for node filters scaled differently, is an algebraic identity.", "anchors": ["danse_toolbox/d_core.py:287-328", "danse_toolbox/d_core.py:397-438", "danse_toolbox/d_batch.py:29-50", "danse_toolbox/d_base.py:2473-2542"]}
{"id": "C65", "title": "Initial filters pass the reference sensor and are usable", "statement": "Before its first update, with the default initialisation, a node's output, local and centralised estimate are the signal of its reference sensor, whatever the others send; what a node sends agrees with its own filter; TI-DANSE can divide by the initial coefficient. (The last part is false for the default type and for the default fixed value, the second for random initialisation.)", "quantifier": "for all networks, reference sensors, initialisation types and fixed values", "why_tests_cant": "Division by zero gives NaN without an exception, and only in the first iteration of a topology-independent run; the index arithmetic of the centralised reference must be right for every node.", "anchors": ["danse_toolbox/d_base.py:2367-2414", "danse_toolbox/d_classes.py:664-726", "danse_toolbox/d_base.py:2502-2504", "danse_toolbox/d_classes.py:271-275"]}
{"id": "C66", "title": "Outputs of an online run are the filtered, overlap-added frames; pass-through filters reproduce the reference", "statement": "In a complete online run, every sample of the (DANSE or local) output of a node is the sum, over the node's updates whose frame contains the sample, of the frames obtained by windowing the node's sensor signals (for DANSE also the signals received by then), filtering them bin by bin with the coefficients of that update and weighting with the synthesis window. With filters that select the reference sensor the output is, away from the two ends, the reference signal times the overlap of the window products, hence the reference signal itself when the windows overlap-add to one. (False for the default windows, the overlap of which is below one at the first sample of each hop.)", "quantifier": "for all schedules, signals, filters, frame sizes, hops; exact clocks of any period for the reproduction", "why_tests_cant": "Indices of frames, the position of the output in the signal and the window normalisation must agree at every update; a misplaced frame or a window that almost overlap-adds is inaudible in an example and passes tolerance tests.", "anchors": ["danse_toolbox/d_base.py:2027-2100", "danse_toolbox/d_classes.py:1252-1330", "danse_toolbox/d_classes.py:1893-1934", "danse_toolbox/d_classes.py:2623-2709", "danse_toolbox/d_base.py:337-355", "danse_toolbox/d_base.py:1429-1479"]}
{"id": "C67", "title": "What few-samples broadcasts send is the filtered sensor signal, aligned in time, with the gain of the windows", "statement": "With few-samples broadcasting, the samples a node sends at a broadcast are the latest L samples of its sensor signals convolved with a time-domain version of its external (broadcast) filter: at every lag the impulse response of the filter coefficients times the correlation of the analysis and synthesis windows over the hop. The coefficients are those of the last renewal, less than the renewal period ago, or the reference sensor is passed through if no renewal has been due. External filters that select the reference send its samples without delay, times a constant gain. (That gain is one is false: the window correlation is taken one lag off.)", "quantifier": "for all window pairs, hops, filter coefficients per iteration, signals, schedules, broadcast lengths up to the frame, renewal periods", "why_tests_cant": "The filter is assembled by an inverse transform, a circulant matrix, reversed diagonals and index offsets; an offset of one sample or a gain just below one is invisible in listening tests and in examples with tolerance, and depends on the window pair.", "anchors": ["danse_toolbox/d_base.py:1871-1991", "danse_toolbox/d_classes.py:1043-1128", "danse_toolbox/d_classes.py:792-796"]}
{"id": "C68", "title": "Received frames are the latest samples sent, aligned in time; synchronous runs finish without error", "statement": "After an update of a node, the frame it has for a neighbour consists of the latest N samples that neighbour has sent, zeros before the first, whatever the clocks and the schedule. In a synchronous network every online run finishes without error, and the frames received are aligned with the local ones: the sample that goes with sample n of the local sensors is sample n of the neighbour's compressed signal, in both broadcast modes. If external filters select the reference sensor and a node's filters select the channel of a neighbour, the node's output is the neighbour's reference signal, at the same sample, times the gain of sending and the overlap of the windows.", "quantifier": "for all networks with mutual neighbours, signals, filters, windows, frame sizes, hops and broadcast lengths that divide each other, renewal periods; the first claim for all histories of sends and reads and all runs", "why_tests_cant": "Offsets between what is sent and what the receiver takes it for (frame ends, buffer lengths, first iteration) depend on frame size, hop, broadcast length and number of updates; a fixed offset merely lowers performance, and errors at the end of a run depend on the signal length.", "anchors": ["danse_toolbox/d_classes.py:1043-1128", "danse_toolbox/d_classes.py:1252-1330", "danse_toolbox/d_classes.py:1701-1807", "danse_toolbox/d_core.py:62-84", "danse_toolbox/d_base.py:1391-1479"]}
{"id": "C69", "title": "Complete adaptive runs: outputs decompose over speech and noise with the run's own filters, and every updated filter is optimal for what the node has received", "statement": "In a complete online run in which the nodes estimate their filters: (1) repeating the run with the estimated filters given in advance goes through the same states and yields the same outputs, so (few-samples broadcasting) outputs are the sums of the outputs of the speech-only and noise-only runs with these filters; (2) the matrices of a node are the exponentially weighted averages of the correlations of exactly the frames it observed with and without speech, the observed frames being the spectra of its latest sensor frames and of the frames received from its neighbours; (3) the filter used for a frame is the one these matrices give, the present frame included, or the previous one if no update takes place, and it is kept for the iteration until the end; with the multichannel Wiener formula it solves the normal equations of these averages; (4) in a synchronous network with the arrays allocated by the code the run finishes without error, whatever the signals.", "quantifier": "for all networks, signals, schedules, update conditions, filter formulas, external filter rules and numbers of events; completion for all synchronous networks with mutual neighbours and hops dividing the frames", "why_tests_cant": "The filters depend on the whole history of exchanged signals, which depend on the filters of all other nodes; evaluation (SNR improvement) silently assumes that the components filtered afterwards add up to the output. Comparison against stored results would not notice an estimator that uses a frame one update late or a filter replaced after use.", "anchors": ["danse_toolbox/d_core.py:62-84", "danse_toolbox/d_core.py:550-599", "danse_toolbox/d_classes.py:1252-1352", "danse_toolbox/d_classes.py:1627-1694", "danse_toolbox/d_classes.py:2048-2362"]}
{"id": "C70", "title": "Whole-chunk broadcasts send the overlap-added fused signal; a receiver gets the fused signal itself from the second hop on", "statement": "In a complete online run with whole-chunk broadcasting and frames of two hops, the chunk a node broadcasts is the overlap-add of its current frame, fused with the external filter of its current iteration, with the fused frame of its previous broadcast, normalised by the squared analysis window; without normalisation at the first broadcast and after a chunk of zeros. In a synchronous network with the same window, without zeros, for analysis and synthesis and external filters constant over frequency, the frames received by a neighbour contain the fused signal of the sender at the sample numbers of the local signals: exactly from the second hop on, scaled by the squared window in the first hop. A node whose filters select the channel of the neighbour outputs that signal.", "quantifier": "for all networks with mutual neighbours, numbers of sensors, signals, windows, hop sizes, gains and signal lengths; the first claim for all clocks, schedules and filters", "why_tests_cant": "The overlap-add takes the previous chunk from the node's state, possibly computed with another filter, in either of two normalisation branches; an offset of a hop, or the filter of another iteration, only changes the performance figures.", "anchors": ["danse_toolbox/d_classes.py:1043-1090", "danse_toolbox/d_base.py:1759-1868", "danse_toolbox/d_base.py:1391-1479", "danse_toolbox/d_classes.py:1252-1330"]}
{"id": "C71", "title": "Online estimation of sampling-rate offsets from coherence drift: what is measured and what remains uncompensated", "statement": "Coherence-drift estimation finishes without error on any spectra of the right sizes. For a neighbour whose channel drifts with a constant offset (less than a sample per segment), the open loop yields, at every estimation instant, the offset times the gain of the method (1 for a search that finds the time lag; 2K(K+1)/((K-1)(2K-1)), between 1 and 1+3/(K-1), for least squares over K bins), whatever the averaging constant, if flags are absent or the broadcast length is one sample; each instant then removes one hop of this estimate from the compensated channel. The estimates should make the compensated channel stop drifting: this fails in the closed loop, where the estimate never exceeds alphaEps times gain times offset (6 percent with the default), and when estimates are made less often than every iteration; with longer broadcasts, flags enter the estimate multiplied by the broadcast length and bias it.", "quantifier": "for all signals, transfer functions to the neighbour, numbers of bins, hops, segment lengths, estimation periods, averaging constants, flags and run lengths", "why_tests_cant": "The loop is a recursion over a whole run: phases, averages and shifts accumulated from iteration to iteration; tests at one offset and one length cannot tell a slow convergence from an estimate that never exceeds a small part of the offset.", "anchors": ["danse_toolbox/d_sros.py:19-95", "danse_toolbox/d_classes.py:2364-2487", "danse_toolbox/d_classes.py:2562-2594", "danse_toolbox/d_classes.py:1936-1997", "danse_toolbox/d_base.py:56-111"]}
{"id": "C72", "title": "Sampling frequencies inferred from time stamps are precise enough for the frames taken with them", "statement": "The sampling frequencies of the nodes are inferred from their time stamps before a run; the same frequency then selects the samples of every frame. Uniform time stamps are accepted and the inferred frequency is right within 51 ppm; jitter above a ten-thousandth of the sample interval is refused; with the right frequency a frame at the time stamp of a sample ends with that sample. The inference should keep offsets between clocks apart (the code claims 1 ppm from 8 kHz on): this fails. Offsets below 40 ppm disappear at 8 kHz and pass the check against simultaneous updating with offsets; 50 ppm at 16 kHz becomes 48 ppm; 44.1 kHz without offset is inferred as 44099.488 Hz. All frames are then at least a sample late and the lag grows with time. Intervals equal up to any tolerance may be refused as jitter. Under simultaneous updating time stamps are accepted exactly if all the inferred frequencies are the same; the check uses the index of the reference sensor for a node, and fails if there is no node with that index.", "quantifier": "for all sampling frequencies above 0.0001 Hz, numbers of samples, time stamps, offsets in the stated ranges and sample numbers", "why_tests_cant": "The precision depends on the decimal digits of the interval; tests at 16 kHz without offset see an exact value, and a frame that ends one sample early only lowers performance.", "anchors": ["danse_toolbox/d_base.py:454-510", "danse_toolbox/d_core.py:53-84", "danse_toolbox/d_base.py:1391-1479", "siggen/utils.py:1334"]}
{"id": "C73", "title": "A topology-independent run gives the same filters and outputs whatever the trees", "statement": "In a complete topology-independent run (fusion, in-network sum over a tree, filter updates, output), every node ends with the filters, fused signals and outputs it would have if it were handed the sum of all the other nodes' fused frames directly: two runs over different trees, roots and instants of tree formation with the same exchanges and updates agree, or fail both. In whole chunks with unrelaxed external filters the run completes as long as no coefficient of the in-network sum is zero. Three uses that should work do not: sending fewer samples at a time than the frames advance by (the default is one) makes every run with an update fail; relaxed external filters with the default initialisation divide the fusion vector by zero after the first enabled update; under sequential updating the first node replaces its estimated coefficient of the sum by one without scaling the others, and divides zero by zero before updates are enabled. At single events: the fused signal weights the sensors by the external filter relative to its coefficient of the sum; the time-domain filter is renewed at the set interval only; all nodes but the first under sequential updating, and the first during the first second, use the estimated filter; the output is the frames filtered by the filter that the update leaves.", "quantifier": "for all numbers of nodes and sensors, trees and roots (new ones at any exchange), schedules, signals, activity decisions, matrix checks, filter formulas and initial states", "why_tests_cant": "A test runs one tree and one set of signals; agreement over all trees and schedules is a refinement statement, and nan results do not stop the program.", "anchors": ["danse_toolbox/d_core.py:174-225", "danse_toolbox/d_classes.py:2785-2853", "danse_toolbox/d_classes.py:2920-3005", "danse_toolbox/d_classes.py:3071-3270"]}
{"id": "C74", "title": "From the scheduler to the outputs, topology-independent runs depend on no topology and complete", "statement": "With a common clock, frames of a whole number of hops and as many samples sent at a time as the frames advance by, topology-independent processing schedules and runs without failure over every family of trees: after an instant that forms the first tree, all nodes exchange signals at every hop from the end of the first frame (or first hop, for few samples) on, over the latest tree formed and in the order of that tree; all nodes have an update scheduled exactly from the hop on at which a frame of exchanged signals is filled; the trees used are rooted at the start node and the following ones in turn. Over any two families of trees, and whatever the order in which sorting leaves simultaneous events, the nodes end up with the same filters, outputs and fused signals, or both runs fail. In whole chunks with unrelaxed external filters and coefficients of the in-network sum that are never zero, the run completes with the number of iterations that the nodes allocate.", "quantifier": "for all numbers of nodes, trees for every root, sorting functions for equal keys, sequential or simultaneous updating with or without new trees, update intervals, start nodes, frame and signal lengths, signals, activity decisions, estimates and initial filters", "why_tests_cant": "The claim is about all families of trees and all valid sorts at once, from the scheduler through every event of a whole run; a test fixes one network, one sort and one length.", "anchors": ["danse_toolbox/d_core.py:152-242", "danse_toolbox/d_base.py:513-571", "danse_toolbox/d_base.py:647-889", "danse_toolbox/d_base.py:923-1225"]}
{"id": "C75", "title": "Pruning a connected network yields a minimum spanning tree, so runs over pruned networks do not depend on the network", "statement": "A connected network in which linked nodes are at different places (or in which all nodes are at the same place) (no coordinate differing from the first node's by more than 1e-8 plus 1e-5 of its size) is pruned to a tree over all its nodes made only of links of the network, the same tree for every root asked for. Exactly the root asked for is marked as root, exactly the other nodes left with one neighbour are marked as leaves, and the tree is oriented towards the root. No set of links of the network connecting all the nodes is shorter in total than the links kept. Topology-independent runs over the trees pruned from any two connected networks, with any positions, give the same filters, outputs and fused signals, and complete in the settings of C74. As the code stands, two linked nodes at the same place (while other nodes are elsewhere) break the network apart however well it is connected, and nodes without positions cannot be pruned at all although the code provides for it.", "quantifier": "for all numbers of nodes, adjacency matrices, positions, roots and orders in which the set of nodes is emptied; for runs, all settings, signals and sorts of C74", "why_tests_cant": "Minimality compares with every connecting set of links of every network; a test checks one network against one alternative. That linked nodes at the same place always disconnect the result is a statement about all networks.", "anchors": ["danse_toolbox/d_base.py:2103-2222", "danse_toolbox/d_base.py:690-698", "siggen/classes.py:448-454", "siggen/utils.py:1319"]}
{"id": "C76", "title": "Metrics are computed over the part of the signals that the user designates by utterances", "statement": "For every activity pattern, the end of the first utterance is the start of the first pause between two speech samples that lasts at least the minimum duration asked for, shorter pauses before it being ignored; the beginning of the second utterance is the end of that pause plus the extra duration asked for; the beginning of the first utterance is the first speech sample. If there is no such pause (or no speech), an IndexError is raised, never a wrong time returned. The metrics window goes exactly from the sample designated as start to the one designated as end, the end of the signals by default; in batch runs the last frame is left out. As the code stands, a signal with a single utterance, however long the silence after it, raises an IndexError for the default start of the metrics.", "quantifier": "for all activity patterns of at least two samples, sampling frequencies, minimum durations, extra durations, designations of start and end, and frame lengths", "why_tests_cant": "The claim is about every pattern of speech and silence, with any number of pauses too short to count; a test fixes one pattern.", "anchors": ["siggen/classes.py:766-846", "siggen/classes.py:489-544", "danse_toolbox/d_post.py:775-808"]}
{"id": "C77", "title": "Enhancement metrics report the improvement over the same window, and exactly what the processing achieved", "statement": "The SNR reported is ten times the decimal logarithm of the ratio of the energies of the speech and noise signals over the window. Gains on speech and noise change SNR and intelligibility-weighted SNR by exactly the difference of the gains in dB (for homogeneous band-pass filters). Every metric reports as its difference the value after minus the value before; a processing with one gain on speech and another on noise is reported with the difference of the gains as improvement; a processing that changes nothing is reported with no improvement in any metric. SNRs are those of the speech and noise parts, the other measures compare the estimate with the clean speech of the microphone, for the microphone signals and each estimate alike; the best performance is evaluated over the window less a fifth of a second at each end. Metrics depend only on the samples of the window. Frequency-weighted segmental SNRs are between 0 and 35 dB. As the code stands: the differences for the local, centralised and single-sensor estimates are never computed; the exponent gamma of the frequency-weighted segmental SNR is used as overlap of its frames; the bands of the weighted SNR lie below their nominal frequencies by a factor of two pi; the dynamic SNR takes the VAD for the noise; the PESQ of the single-sensor estimate takes the filtered speech as reference; and leaving out the VAD, the default, is refused.", "quantifier": "for all signals, windows, gains, VADs, sampling frequencies, choices of metrics, and all band-pass filters, spectra and intelligibility or quality measures of the libraries", "why_tests_cant": "Invariance under all gains, all signals outside the window and all library measures is a statement about infinitely many inputs.", "anchors": ["danse_toolbox/d_eval.py:70-373", "danse_toolbox/d_eval.py:484-537", "danse_toolbox/d_eval.py:573-624", "danse_toolbox/d_eval.py:666-768", "danse_toolbox/d_eval.py:434-441"]}
{"id": "C78", "title": "A root that the user does not impose is the node with the largest signal-to-noise ratio", "statement": "When no root is imposed, the root is an existing node: the one the user defined, or one whose measure of signal-to-noise ratio no node exceeds. As the code stands, the measure is the power of the whole signal over that of its active part, so that with a common activity pattern the root is always a node with the smallest ratio of active to inactive energy, the opposite of what is announced.", "quantifier": "for all numbers of nodes, signals and activity patterns", "why_tests_cant": "That the worst node is chosen for every network is a statement about all signals; a test with differing activity patterns or one network can go either way.", "anchors": ["siggen/classes.py:456-487"]}
{"id": "C79", "title": "Random layouts keep sources, nodes and sensors where they are asked for", "statement": "For every draw, sources of random layouts are never closer to a wall than the distance asked for, and sensors never closer than that distance less the extent of their array, so that all sensors are in the room if the distance to the walls is at least that extent. The sensors of a linear array are equally spaced on a line and centred on the node; those of type 'radius' are within that radius of the node; those of a grid (up to 27, an IndexError beyond) have one sensor at the node, six at the distance asked for, and no two closer than that. A random rotation changes neither the centre of an array nor the distances between its sensors. As the code stands, sensors of linear arrays are farther apart than asked for, and sensors can be closer to a wall than the distance asked for, or outside the room.", "quantifier": "for all rooms, distances, numbers of sources, nodes and sensors, draws and rotations", "why_tests_cant": "The claim is about every draw of the random generator; a test fixes a seed.", "anchors": ["siggen/utils.py:962-1067", "siggen/utils.py:369-396"]}
{"id": "C80", "title": "Spinning-top layouts respect the distances asked for, for every draw", "statement": "Points drawn on a line are as many as asked for, on the line, and no two closer than the spacing asked for; without a spacing they are at the distance asked for from the walls. A single point is the first one drawn that is that far from the walls, and there is none only if that does not happen within the number of attempts. Whenever a spinning-top layout is accepted, all its sensors, and its source of each kind if there is a single one, are at the distance asked for from all walls. The ring of nodes is rotated rigidly into the plane perpendicular to the direction of its centre, and up to six nodes are at least the distance asked for apart. As the code stands: points drawn again for the spacing can be outside the room; with seven nodes or more neighbours can be too close; the line of the sources goes through a corner of the room whatever the offset drawn; layouts exist only for one or three sources of each kind; a single source is kept below the smallest dimension of the room in all coordinates; with three sources one above the ceiling is accepted; and layouts with a vertical line are never found.", "quantifier": "for all rooms, distances, numbers of sources, nodes and sensors, numbers of attempts and draws", "why_tests_cant": "Acceptance is claimed or excluded for every sequence of random draws; a test sees a few seeds.", "anchors": ["siggen/utils.py:421-585", "siggen/utils.py:1685-1729", "siggen/utils.py:1732-1817"]}
{"id": "C81", "title": "Random signals pause exactly where they are asked to; random impulse responses have the shape asked for", "statement": "With regular pauses, a generated random signal is zero exactly on the pauses given by first pause, pause duration and spacing, and equals the drawn values elsewhere; with random pauses it is zero exactly on intervals whose number and lengths follow from the pause durations and the draws; without pauses it is the drawn signal. A distribution that is not known is an error. Random impulse responses are as many as sensors times sources, of the duration asked for, drawn values times the decay asked for; immediate decay leaves a single first sample and is an error below one sample.", "quantifier": "for all parameters, lengths, sampling frequencies, numbers of sources and sensors and draws", "why_tests_cant": "The claim is about every sample of every draw for every choice of real-valued durations, including those that do not fall on samples.", "anchors": ["siggen/utils.py:676-748", "siggen/utils.py:229-308"]}
{"id": "C82", "title": "The scene adds up: every sensor gets its own responses, its activity and its SNR", "statement": "Each sensor of each node gets the responses between itself and every source, in the order of the sources; wet signals are the sources filtered by these responses, with one activity per source; the network is active exactly when some source is. With one noise source and the SNR defined at a microphone, the SNR there is the one asked for; with K of them each has that SNR, and the SNR of their sum is lower by at most 20 log10 K dB. With the SNR defined on dry signals it is exact for signals of zero mean, and a normalised signal has power one plus the square of its mean over its standard deviation. As the code stands, preparing a run always fails with a TypeError for two or more desired sources, and without noise sources the noise responses are those of the desired sources.", "quantifier": "for all numbers of nodes, sensors and sources, responses, signals, lengths and SNRs", "why_tests_cant": "The index arithmetic is claimed for every distribution of sensors over nodes, and the levels for all real signals.", "anchors": ["siggen/utils.py:18-226", "siggen/utils.py:598-612", "siggen/utils.py:834-893", "siggen/classes.py:418-423", "danse_toolbox/d_core.py:466-547"]}
{"id": "C83", "title": "Preparing a network keeps parameters and signals consistent", "statement": "A per-node parameter is used as given, spread over all nodes if there is a single value, zero if there is none, and refused otherwise; accepted parameters have one offset, one sampling frequency fs(1 + offset/1e6) and one number of sensors per node, and the distance to the walls is below a third of every room dimension. The forgetting factor is between zero and one, and the weight of the past is at most a half after m frames exactly if these frames last the time asked for; a forced factor is used as given. Replacing sensors by noise changes the signals of these sensors only, and the reference signals follow; adding noise sensors keeps the sensors there were, in their place, and the numbers of sensors of network and parameters agree. As the code stands, replacing the first sensor of the network alone has no effect; signals without sampling rate offsets do not get the added sensors; what an added sensor records is not the sum of its speech and noise; and preparing twice counts them twice.", "quantifier": "for all networks, parameters, signals, sets of replaced sensors and numbers of added sensors", "why_tests_cant": "Consistency is claimed for every network and every choice of sensors; the half-life claim concerns real numbers.", "anchors": ["siggen/classes.py:235-334", "siggen/utils.py:1361-1411", "danse_toolbox/d_core.py:466-547"]}
{"id": "C84", "title": "Noise files chosen from a folder are distinct, and no noise of the folder is lost", "statement": "Noise files are chosen from a folder exactly if the option is \"loadfrom \" followed by the folder. Choosing n noise files from a folder gives n different files of the folder, or an error if there are too few. Of every file of the folder a version (itself or resampled) can be chosen, and only files with a resampled version in the folder are left out. If no two files listed one after the other both have resampled versions, a file and its resampled version are never chosen together. As the code stands, they can be otherwise, because the list is changed while it is gone through.", "quantifier": "for all folders, orders of their files, sampling frequencies, numbers of files and draws", "why_tests_cant": "The outcome depends on the order in which the file system lists files; a test sees one order.", "anchors": ["siggen/classes.py:262-309"]}
{"id": "C85", "title": "Initial correlation matrices have the right size, and matter only as long as the forgetting factor says", "statement": "Initial correlation matrices are as large as the signals they are for in every network of at least two nodes. With type 'eye' they are the scaled identity, and all matrices of the run are Hermitian and positive semi-definite at all times. Two runs over the same frames with different initial matrices differ, after m frames of a kind, by exactly the m-th power of the forgetting factor times the initial difference, so that at most half of it is left after frames lasting the half-life asked for; with the first frame as basis nothing is left. As the code stands, random initial matrices (the default) are Hermitian only for symmetric draws, and if they are not, the matrices are Hermitian at no time of the run; and a topology-independent network of a single node gets matrices that are too small.", "quantifier": "for all networks, settings, draws, frames, activities and run lengths", "why_tests_cant": "The claim is about all times of all runs and every draw; whether a matrix is exactly Hermitian cannot be read off one run in floating point.", "anchors": ["danse_toolbox/d_base.py:2417-2470", "danse_toolbox/d_classes.py:551-650", "danse_toolbox/d_classes.py:2048-2268"]}
{"id": "C86", "title": "Single-sensor broadcasting stacks the node's own sensors and one sensor of every other node", "statement": "With single-sensor broadcasting, the observation vector of a node has its own sensors first, in order, followed by one channel per other node in the order of the nodes: as many channels as it has sensors plus the number of other nodes. The channel of a node is its first sensor; as the code stands that is so even if another sensor is the reference sensor, although the documentation says that the reference sensor is broadcast. In the centralised observation vector, sensor m of a node is found after the sensors of all nodes before it.", "quantifier": "for all networks, numbers of sensors, nodes, frame lengths and signals", "why_tests_cant": "The position of a channel depends on the numbers of sensors of all nodes before it; a test fixes one network.", "anchors": ["danse_toolbox/d_classes.py:1587-1612", "danse_toolbox/d_classes.py:1495-1585"]}
{"id": "C87", "title": "Accepted test settings fit together, and stay the same when loaded again", "statement": "Settings accepted for a test fit together: no network-wide compensation of sampling rate offsets in a fully connected network; topology-independent updating and no single-sensor broadcasting in any other network; no offsets with updating 'sim'; exports that the type of simulation, the room and the signals allow; metrics that start before the end of the signal. Every export asked for that these allow is kept. Nothing else is changed. The user is asked a question exactly if network-wide compensation is asked for in a fully connected network, and only 'y' continues. Accepted settings with a positive hop are accepted again unchanged without a question. As the code stands, the updating 'topo-indep_sim' is accepted with offsets, batch runs with offsets are accepted without the question foreseen, and a fully connected network keeps topology-independent updating.", "quantifier": "for all settings, answers of the user and conversions of strings to numbers", "why_tests_cant": "The settings form an infinite space with interacting options; tests cover few combinations.", "anchors": ["danse_toolbox/d_classes.py:214-287", "danse_toolbox/d_classes.py:296-303"]}
{"id": "C88", "title": "Batch estimates are as long as the signals and pass speech and noise separately", "statement": "For signals of at least one frame, the best performance reference always has an estimate of the same length as the signals. The estimates from speech alone and from noise alone add up to the estimate from their sum. A filter that selects a sensor gives its signal back up to the end of the last complete frame wherever the windows do not vanish, and zeros for less than one hop after it. The frames of a signal are the fewest that cover it, and with half overlap or more each has an activity, so that the correlation matrices can be estimated. The cost of an estimate is zero exactly if it is right except at the ends. As the code stands, batch runs fail if the signals end with a complete frame, or use the first frame only if there are two; without overlap they fail if they do not.", "quantifier": "for all signals, lengths, even frame lengths, hops, windows with non-zero sum, numbers of channels and filters", "why_tests_cant": "Whether the last frame is complete depends on the length of the signals; tests use one length. Reconstruction is an identity over all signals.", "anchors": ["danse_toolbox/d_base.py:2284-2364", "danse_toolbox/d_batch.py:20-204", "danse_toolbox/d_classes.py:378-476", "danse_toolbox/d_core.py:602-626"]}
{"id": "C89", "title": "Sampling-rate offsets estimated by DXCP-PhaT are defined, bounded and independent of levels", "statement": "No input makes the DXCP-PhaT estimator fail or divide by zero: a largest value inside the range always has a proper parabola. Both estimates are zero until the containers are filled and the averages settled (accumulation frames + FFT size / shift + waiting + settling); from then on the rate offset stays within one lag below and two lags above the largest offset asked for. It is the position of the peak of the correlation of the phase changes over the accumulation time, the most recent one with the largest weight. For one signal at two levels that correlation is symmetric and largest at lag zero only. The estimate does not depend on the levels of the two signals as long as no frequency falls below the floor, and a correlation with one single non-zero value is located exactly. As the code stands, silence is not reported as synchronous: a silent signal yields an offset below the most negative one asked for, which drives the simple controller to its limit within ten frames.", "quantifier": "for all input signals, numbers of updates, smoothing constants, positive windows of the upsampling and all parameters whose range of lags fits in the frame", "why_tests_cant": "Definedness and bounds over all signals and histories; a test signal never has the ties of the maximum search that decide them.", "anchors": ["dxcpphat/sro_estimation.py:DXCPPhaT._stateupdate", "dxcpphat/sro_estimation.py:DXCPPhaT.__init__", "dxcpphat/sro_estimation.py:CL_DXCPPhaT_Simple.process"]}
{"id": "C90", "title": "Sampling-time offsets estimated by DXCP-PhaT", "statement": "The time offset is at most half the FFT size minus one in absolute value, up to the time difference of arrival. A pure delay by a whole number of samples is found exactly and with its sign, whatever the weight of the correlation, and the time difference of arrival is added to it. Removing an accumulated shift of a whole number of samples moves the correlation by it. As the code stands, other shifts are not removed properly: for real signals the correlation is bounded by the cosine of pi times the shift, so that a frame whose accumulated shift is half a sample off a whole number leaves the time offset unchanged, whatever the signals.", "quantifier": "for all input signals, histories, delays, shifts, weights and FFT sizes (of at least 200 for the refutations)", "why_tests_cant": "An identity over all spectra and shifts; whether an accumulated shift is near half a sample depends on the estimate and the number of frames.", "anchors": ["dxcpphat/sro_estimation.py:DXCPPhaT._stateupdate"]}
{"id": "C91", "title": "Centralised online estimates of sampling-rate offsets", "statement": "With the centralised estimates enabled, the estimation of offsets finishes without error on any spectra of the right sizes and any flags. A node never estimates an offset of its own clock. For any other node it obtains the estimate that it would obtain if that node sent the signal of its first sensor, so that the open loop yields the offset times the gain of the method at every estimation instant. Without flags all sensors of a node are shifted alike, by the sum of the estimates for that node, and the node's own sensors are left as they are. As in the distributed case, the closed loop with the default step never estimates more than 6 percent of the offset.", "quantifier": "for all signals, transfer functions, numbers of nodes and of sensors per node, bins, hops, segment lengths, estimation periods, averaging constants, flags and run lengths", "why_tests_cant": "A relation between two recursions over whole runs, for every assignment of sensors to nodes; index mix-ups between nodes and sensors only show for unequal sensor numbers.", "anchors": ["danse_toolbox/d_classes.py:DANSEvariables.update_sro_estimates", "danse_toolbox/d_classes.py:DANSEvariables.build_phase_shifts_for_srocomp"]}
{"id": "C92", "title": "Predefined layouts are simulated as laid out", "statement": "A complete layout file (all announced sensors described, at least one per node) is accepted exactly when its room is wide enough for the distance to the walls, the offsets and added sensors given per node fit its number of nodes (one per node, or all alike), and there are at least as many signals as sources. Then numbers of nodes, sensors and sources are those of the layout whatever the configuration says, each node gets exactly the sensor positions given for it, in order, and has one clock offset and sampling rate. As the code stands, the room that is simulated has the dimensions of the configuration: a layout made for another room is never rejected, and its sources can lie outside the room. Missing positions are not reported either, and with a random network asked for the sensors of the layout are shared out among the nodes of that network.", "quantifier": "for all configurations and layout files", "why_tests_cant": "The dimension check passes for every input, which no finite set of accepted layouts reveals; the block structure must hold for all sensor numbers.", "anchors": ["siggen/utils.py:build_room", "siggen/classes.py:WASNparameters.align_with_loaded_yaml_layout"]}
{"id": "C93", "title": "An exported configuration can be loaded again", "statement": "A parameter object whose declared fields hold numbers, plain strings, lists in list fields, arrays in array fields, and sub-objects of the same kind, can be exported as a YAML template; loading the file into any object with the same declared fields succeeds and restores every declared field at every level, with arrays as arrays and lists as lists, while attributes that are not declared fields keep the values of the object loaded into. As the code stands, an array held in a field declared as a list (the numbers of sensors per node, once a layout or a random network has set them) comes back as a list, and a string enclosed in brackets does not come back as a string.", "quantifier": "for all parameter objects, at any depth of nesting", "why_tests_cant": "The restored values depend on the nesting, the types of all fields and the key order of the file; tests cover a few configurations.", "anchors": ["danse_toolbox/dataclass_methods.py:dump_to_yaml_template", "danse_toolbox/dataclass_methods.py:load_from_yaml"]}
{"id": "C94", "title": "Speech-only and noise-only outputs of batch runs", "statement": "For SNR computations a run is repeated on the speech and on the noise part of the signals with the filters of the run given. The output of a node is that of one filter over all the sensors of the network: its own final coefficients, and those of the others through the signals they send, fused with the external filters in use at the beginning of the last iteration; it is applied to the microphone signals, the speech or the noise. If those filters are applied, the two outputs of every node add up to its output for the microphone signals. As the code stands, the batch functions accept the given filters but estimate new ones from the speech or the noise alone: all three runs complete, but the parts do not add up to the output, and wherever the noise observed by a node has the same correlations with and without speech (stationary noise), the noise-only output is zero and the SNR infinite.", "quantifier": "for all networks, signals, modes, initial filters, numbers of batch updates", "why_tests_cant": "That outputs add up is a statement about all signals; the runs complete without error, so the wrong decomposition is only visible in the values of the metrics.", "anchors": ["danse_toolbox/d_core.py:generate_signals_for_snr_computation", "danse_toolbox/d_core.py:danse_batch", "danse_toolbox/d_core.py:tidanse_batch", "danse_toolbox/d_classes.py:update_using_pregiven_filters"]}
{"id": "C95", "title": "Condition numbers are recorded at the announced iterations", "statement": "With the condition number plot asked for, after any number of updates of a node in an online run the record of its DANSE, local and centralised matrices (those that are computed) has one column per record interval: the column labelled with an iteration holds, one per frequency, the condition numbers of the matrices of that very iteration; records are due at the last iteration of each interval (at every iteration for intervals up to one), and there are as many as whole intervals. Without the option nothing is recorded.", "quantifier": "for all numbers of updates, record intervals and matrices", "why_tests_cant": "Labels and columns must agree for every interval and length of run.", "anchors": ["danse_toolbox/d_classes.py:ConditionNumbers", "danse_toolbox/d_classes.py:compute_condition_numbers", "danse_toolbox/d_classes.py:spatial_covariance_matrix_update"]}
{"id": "C96", "title": "Evaluation of estimated sampling-rate offsets", "statement": "In the evaluation of the demonstration of offset estimation, the error over time is the root of an exponentially weighted mean of the squared errors of the estimates: it lies between the smallest and the largest error made so far and forgets old errors by a factor 9/10 per frame. The settling time is the start of the last frame in which it exceeds 1 ppm, and -1 if it never does; as the code stands this holds for frames of 2048 samples only. The residual time offset is the drift, in samples, left by the estimates used up to the last evaluated frame if the estimate there is exact. The signal-to-synchronisation-noise ratio is computed exactly if the error exceeds 1 ppm at some frame and 8192 samples are left from there on; so, as the code stands, it is never computed for estimates that are within 1 ppm from the first frame on.", "quantifier": "for all sequences of estimates, true offsets, frame lengths, sampling rates and signal lengths", "why_tests_cant": "Bounds and the last crossing of a threshold are statements about all trajectories; the function is not called in the repository.", "anchors": ["dxcpphat/demo_utils.py:evaluate_simulation_results"]}
{"id": "C97", "title": "Closed loop of resampling, estimation and control", "statement": "No sequence of frames makes the closed-loop synchronisers fail: every frame yields one frame, the resampler stays within its buffer, and with the simple controller the estimate stays within 100 ppm. The frames put out are those of the resampler fed with the negated estimate reported for the frame before. The raw estimates are those of the estimator for the last FFT-size samples of the reference, delayed by two frames, and of the frames put out, once per FFT shift; the estimates are those of the controller for the activities and raw estimates so far. Until the estimator has been updated often enough (accumulation frames, FFT size over shift, waiting and settling time), and for ever if coherence is never found active, the estimate is zero and the second channel comes out unchanged, exactly two frames late. As the code stands, a silent reference does not leave the other channel alone: ten frames after the start of the estimation the simple controller compensates -100 ppm and stays there.", "quantifier": "for all estimator settings with a range of lags below half the FFT size, all frame sizes, all sequences of frames and activity values, all controller coefficients and start delays", "why_tests_cant": "The loop feeds its own estimates back; that it never fails, stays within its limits and is a pure delay before the first estimate are statements about runs of any length with any signals.", "anchors": ["dxcpphat/sro_estimation.py:CL_DXCPPhaT.process", "dxcpphat/sro_estimation.py:CL_DXCPPhaT_Simple.process"]}
{"id": "C98", "title": "SNR estimates from the microphone signals", "statement": "The SNR estimate from a signal and its VAD is defined for every channel if the VAD covers the signal; a gain and what follows the end of the signal in the VAD have no influence; it is infinite without pauses, and minus infinite without speech or with less power during speech than in the pauses. As the code stands it is twice the number of decibels (20 log10 of a ratio of powers), and a VAD shorter than the signal makes it fail. The SNR trajectory from a known noise floor is a number or minus infinity at every sample and never above the SNR at the peak; for constant power it is minus infinity first and then the SNR times 1 - alpha^n. Its smoothed version is that of the mean power of the window around each sample, inside the signal; as the code stands, the samples missing beyond the ends count as zeros, and a signal of at most half a window with an SNR of 0 dB or less gets minus infinity throughout.", "quantifier": "for all signals, VADs, noise floors, forgetting factors, window lengths", "why_tests_cant": "Whether an estimate in decibels is right, invariant under gains and free of NaN are statements about all signals; the wrong factor looks plausible in every single value.", "anchors": ["danse_toolbox/d_eval.py:getSNR", "danse_toolbox/d_eval.py:get_snr_old", "dxcpphat/demo_utils.py:compute_node_snr"]}
