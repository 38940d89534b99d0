# Formal model of p-didier/danse

Coq 8.16.1.  Sources in `rocq/theories`, properties in `properties.jsonl`, status
and theorem names per property in `MANIFEST.json`, mutation log in
`seeded/LOG.jsonl`.

## Layout

Every area has a *model* file (executable Gallina; each definition cites the
Python lines it mirrors), *facts* files (lemmas), a *spec* file where a statement
needs vocabulary ("round robin", "is a rooted tree", "sum of the convolutions"),
defined without the helper functions of the model, and a *props* file that holds
the theorems, an `Example` that meets the hypotheses of each, and
`Print Assumptions`.

| model file | code | theorems in |
|---|---|---|
| `Sched.v`, `Inst.v` | event schedule, `d_base.py` 574-1388 | `SchedProps.v` |
| `Buffers.v`, `Centr.v` | exchange of samples and event loop, `d_classes.py`, `d_core.py` 62-84 | `BufProps.v`, `CentrProps.v` |
| `Chunk.v`, `Wola.v`, `Cx.v`, `Dist.v` | block extraction, filtering, DFT, overlap-add, `d_base.py` 1391-1991 | `ChunkProps.v`, `WolaProps.v`, `OnlineProps.v` |
| `Tree.v`, `InNet.v` | topology-independent operation, `siggen/classes.py` 546-596, `d_classes.py` 2732-2916, `d_core.py` 174-225 | `TreeProps.v` |
| `Filt.v`, `Batch.v`, `Scm.v`, `Ext.v` | correlation matrices and filters, `d_classes.py`, `d_batch.py` | `FiltProps.v`, `ScmProps.v` |
| `BatchSig.v`, `InitFilt.v` | batch DANSE and TI-DANSE on signals, `d_base.py` 2367-2542, `d_batch.py`, `d_core.py` 287-328, 397-438; initial filters | `BatchSigProps.v`, `InitProps.v` |
| `Online.v` | complete online runs with given filters | `OnlineProps.v` |
| `SroComp.v`, `Netwide.v` | SRO compensation, network-wide filters | `SroProps.v`, `NetwideProps.v` |
| `Params.v`, `Divis.v`, `Config.v` | parameters, divisors, configuration files, export folder | `ParamsProps.v`, `ConfigProps.v` |
| `SigGen.v`, `Level.v`, `Async.v` | scenario generation, `siggen/` | `SigGenProps.v`, `LevelProps.v`, `AsyncProps.v` |
| `Dxcp.v`, `Resamp.v` | SRO estimation and online resampling, `dxcpphat/` | `DxcpProps.v`, `ResampProps.v` |
| `Post.v`, `Stoi.v` | metrics and export | `PostProps.v`, `StoiProps.v` |

## Conventions

* Instants.  All event instants are computed by the code as
  `integer * integer / fs`.  They are modelled as integers counted on a common
  clock fine enough for all nodes (each node has an integer sample period).
  Floating-point rounding of instants is not modelled.
* Signals are lists; where only routing matters the sample type is a type
  variable; where arithmetic matters it is `R` (or pairs of reals for complex
  numbers), i.e. exact arithmetic without rounding, overflow or NaN.  The VAD
  fractions, the tolerances of array comparisons and the 16-bit export use `Q`.
* A Python exception is an explicit error value (`Err ValueError`, ...).  A
  `while` loop whose termination is not structural takes fuel and returns
  `Err OutOfFuel`; theorems show that it does not occur (or, for C36, that it
  always occurs).
* numpy's `argsort` (unstable) is modelled by a stable sort; the statements do not
  depend on the order of ties.
* Matrix inverses and generalised eigenvalue decompositions are not computed:
  theorems quantify over every matrix that is an inverse, every decomposition.

## Properties

What is modelled, what is proved, and where the code does not do what the
property says (`_refuted` theorems carry the witness).

| id | modelled and proved | limits, parts that are false of the code |
|---|---|---|
| C01 | `initialize_events`, `events_parser`: the schedule is a permutation of the instants given, in order of time, for any instants; composed with the computed instants | |
| C02 | every group lists its broadcasts before its updates | |
| C03 | leaves-to-root order of fusions in every group of the topology-independent schedule | trees as returned by C23 |
| C04 | the order of the tree keeps every event of the group | a node missing in the order loses its events (`missing_node_dropped`) |
| C05 | bypass flags of the sequential scheme, over whole schedules | |
| C06 | same, minimum spacing | |
| C07 | root of the tree in force = updating node at every update | only with updates at every frame (`update_every_2_refuted`) |
| C08 | `get_sequential_update_instants`: termination, order, no simultaneous entries | lists of unequal lengths (`unequal_lengths_refuted`) |
| C09, C10 | update and broadcast instants, efficient broadcasting | |
| C11 | number of update events of any node never exceeds the allocated iterations | |
| C12 | flags along every synchronous run of schedule and buffers | whole-chunk broadcasts: the first update flags `N - Ns` missing samples (`whole_chunk_refuted`) |
| C13-C16 | `broadcast`, buffers, `process_incoming_signals_buffers`; refinement to per-link histories, over all interleavings | |
| C17 | `fill_buffers_centr`, stacking of raw signals | an empty chunk raises (`empty_chunk_fails`) |
| C18 | `get_current_chunk`-type extraction for every event of a run | beyond the end of the recording the chunk is short (`beyond_the_recording`) |
| C19 | few-sample filtering is a window of the linear convolution | |
| C20, C21 | `back_to_time_domain`, whole-chunk WOLA | all-zero frames (`after_silence_refuted`), three or more hops per frame, no overlap (exceptions) |
| C22-C24 | orientation, ordering, in-network sums over whole runs with changing trees | |
| C25, C26, C28 | `update_and_estimate`, estimators of one node, batch iterations | centralised estimator: `centralised_frame_lost_refuted`, `skipped_centralised_refuted`; 'random' initialisation: `random_start_refuted` |
| C27, C61 | averaging of the correlation matrices, along runs and in batch | |
| C29 | external filters | |
| C30 | complete runs with given filters on mixture, speech and noise: estimates add up | estimates of SROs are given, not recomputed from the signals; whole-chunk: silence of one component alone (`whole_chunk_refuted`) |
| C31, C57 | filter formulas | |
| C32 | `DANSEparameters.__post_init__`, exact acceptance condition | negative lengths, unknown types and a default longer than the hop are accepted (three `_refuted`) |
| C33 | `allDivisors` | integers below 2^53 |
| C34, C35, C54 | topology, sensor map, reference microphone | sensor-less last node dropped; reference index only right under the condition of `right_iff` |
| C36 | looping of sources | empty file: never terminates |
| C37, C38 | VAD per frame, key times | final silence never counts |
| C39-C41, C58 | oracle VAD, SNRs, rotation | window below two samples raises |
| C42, C44, C45, C59, C60 | delay line, controllers, topology check, start-up, alignment | `same_reference_refuted`; frame size above the accumulation time: no refresh |
| C43 | online resampler; the phase shift is the interpolation kernel (`ResampSpec.v`) by exchanging sums, then an invariant over the blocks | the returned block is a view that the next call overwrites |
| C46-C48 | YAML loading, comparison, export folder | unknown keys; comparison not symmetric, unequal arrays raise |
| C49, C50, C55 | dynamic metrics, 16-bit export, silent frames | small overlaps raise; negative peaks overflow; no exact reproduction at the ends |
| C51 | phase-shift compensation | centralised drift (`centralised_drift_refuted`), last node |
| C52, C56 | mixtures and resampling to node clocks | sensors other than the first use the first one's self-noise |
| C53 | network-wide filters reproduce the node outputs | only when filters no longer change (`changing_filters_refuted`) |
| C62 | `get_y_tilde_batch`, `batch_update_danse_covmats`, filter formula, sequential and simultaneous batch runs; least-squares optimality by the normal equations, traced back to network-wide filters | without relaxation of the external filters |
| C63 | same; induction over the run: the adopted filter, scaled to the next reference, is among the choices of the next node | one source; TI-DANSE: fusion at every node, non-zero divisor |
| C64 | same; the centralised filters are parallel, the restriction solves the node's normal equations, uniqueness by the inverse | one source |
| C65 | `init_complex_filter` and its calls | random filters do not match what is sent; TI-DANSE divides by zero with the default parameters |
| C66 | `get_desired_sig_chunk`, `get_desired_signal`, window choice, on the complete-run model of C30; uniqueness of real frames with given half spectrum, induction over the events, regular updates from C01-C05 | WOLA mode; DANSE output without SRO compensation; exact clocks for the reproduction; default windows refuted |
| C67 | `dist_fct_approx`, few-samples branch of `broadcast`, `danse_compression_few_samples` on the complete-run model; diagonals of the circulant matrix as window correlations, induction over events for the filter in force | fixed broadcast length (not efficient); unit gain refuted |
| C68 | buffers, schedule, broadcast and update of the complete-run model together; invariant on histories (C12-C16), broadcast times from the synchronous schedule, refinement of the run to buffer lengths for completion | alignment and completion: synchronous clocks, fixed broadcast length; completion with whole-chunk broadcasting: frames of two hops (more overlap raises an error, C21) |
| C69 | `update_and_estimate`, `broadcast` and the event loop with the estimators of C25-C29, C31, C61 inside the complete run of C30; filters up to the current iteration never change afterwards (invariant over events), hence replay; projection of the run on each node's observations; refinement to index bounds for completion | `computeLocal` on, centralised and single-sensor estimates off, SRO estimates given; observations stated without SRO compensation; superposition for few samples; completion for synchronous clocks |
| C70 | whole-chunk branch of `broadcast`, `danse_compression_whole_chunk` on the complete-run model; the chunk kept between broadcasts (invariant over events), consecutive broadcasts from the synchronous schedule, alignment of C68 | frames of two hops; exact reception for synchronous clocks, the same non-zero window for analysis and synthesis, gains constant over frequency |
| C71 | `cohdrift_sro_estimation`, `update_sro_estimates` and `build_phase_shifts_for_srocomp` with the compensation of C51, iteration by iteration; phases confined to a cone (convexity) through the averaging, least squares summed in closed form, induction over prefixes of the run | neighbour channel: delayed, filtered copy of the first local sensor; offset below one sample per segment; golden-section search arbitrary, assumed to find the lag; non-negative offsets in the closed loop |
| C72 | `check_clock_jitter`, `ensure_shortfat_orientation`, `base_event_checks` and the index arithmetic of the frames over the reals (log10, rounding half to even); error bounds from the rounding unit, concrete frequencies for the refutations | reals instead of floats: with floats the products of time and frequency round as well |
| C73 | complete TI-DANSE runs (`TiRun.v`: fusion, sums, updates, output, normalisation) refine runs with an ideal exchange (`TiSpec.v`), by induction over schedules with the tree theorems of C22; invariants on filter coefficients for completion, on frame lengths for the few-sample failure | schedules are assumed of the form proved for the scheduler (order of levels); a division by zero ends the model where numpy continues with nan; no SRO compensation, centralised or SSBC estimates |
| C74 | whole TI-DANSE runs (`TiSched.v`: scheduler of `Sched.v`, then the run of `TiRun.v`): totality of the scheduler, the form of its schedules (`TiSpec.regular`) from the exactness theorems, invariance of the bypass marks under reordering of simultaneous events, then C73 | trees and orderings per root are parameters (any trees); common clock, no SRO compensation |
| C75 | `prune_wasn_to_tree`, `update_wasn_object_from_nxgraph` and Prim's algorithm as in networkx (`Prune.v`): cut argument by induction over the loop (exchange of one link in any connecting set of links), trees as networks grown link by link, then C22 for the orientation and C74 for the runs | networkx is modelled from its documented algorithm; a root is always given, as in all uses in the toolbox; positions over the reals |
| C76 | `get_key_time`, `get_metrics_key_time` and the window of the metrics (`KeyTime.v`) against pauses of the activity pattern (`KeyTimeSpec.v`): the list of changes of the VAD alternates between starts and ends of pauses, then induction over the jumps | rationals instead of floats |
| C77 | `get_metrics` with SNR, weighted SNR and the parameters and clipping of the segmental SNR (`Eval.v`), over reals with infinities and nan | band-pass filters, spectra, STOI and PESQ are arbitrary functions (STOI itself: C55) |
| C78 | `set_tree_root` (`Root.v`), over reals with infinities and nan; invariant of argmax, monotonicity of the measure | reference sensor 0 |
| C79 | `generate_array_pos` and the layouts 'random' and 'all_nodes_in_center' (`Layout.v`): sums over arrays, rotations as linear maps preserving lengths, the 27 grid points by their offsets | random numbers and rotations are parameters |
| C80 | `random_points_on_line`, `rotate_array_yx` and the spinning-top branch of `build_room` (`Spin.v`): invariants of the drawing loops, the rotation matrix by algebra, chords of the circle | random numbers and numbers of attempts are parameters |
| C81 | `generate_rand_signal`, `generate_random_rir`, `generate_random_impulse_responses` (`RandSig.v`): the loops over pauses against the set of paused samples | draws are parameters |
| C82 | split of the responses in `build_room`, noise levels, wet signals and activity in `build_scenario` and `get_vad` (`Scene.v`) | the room simulation is a parameter; signals are real |
| C83 | `WASNparameters.__post_init__`, the end of `build_wasn` and `prep_for_danse` (`Prep.v`) | drawn signals are parameters; reading of files not modelled |
| C84 | `_select_random_files_from_folder` (`FileSel.v`): the loop over a list that it changes, by position; invariants of the removals | the file system is a list of names |
| C85 | `init_covmats` and its use in `init_from_wasn` (`InitCov.v`), with the runs of C27 and C61 and the forgetting factor of C83 | initial values from batch estimates are in C61 |
| C86 | `build_yssbc` (`Ssbc.v`) over the matrices of C17; invariant of the loop over the nodes | time domain; the transform of the frame is that of C20 |
| C87 | `TestParameters.__post_init__` (`Settings.v`) with the checks of C32; the lines typed by the user are a list | checks of the network parameters left out |
| C88 | `get_stft`, `get_istft`, the estimates of `d_batch.py` and `get_best_perf` in the time domain (`BatchTime.v`); inverse transform of C20, linearity | scipy's transforms after their documentation; the filters are arbitrary (those of C62) |
| C89 | `DXCPPhaT._stateupdate` with its parameters (`Phat.v`); first largest entry, convexity of the parabola, induction over updates | the frames at which it runs are those of C44; Kaiser window arbitrary |
| C90 | the same, time offset; Hermitian symmetry, strict maximum of the band-limited kernel | whole-sample delays; for fractional ones only the bound and the refutation |
| C91 | centralised branches of `update_sro_estimates` and `build_phase_shifts_for_srocomp` (`CohCentr.v`); simulation of the distributed run of C71 on the first sensors, by induction over iterations | restrictions of C71; with flags, closed loop and unequal sensor numbers only completion and the own estimate |
| C92 | branch 'predefined' of `build_room`, `align_with_loaded_yaml_layout`, `__post_init__` (`Predef.v`); equivalence for acceptance, block structure from C35 | rational numbers; YAML reading, topology and pyroomacoustics left out |
| C93 | `dump_to_yaml_template` with sorted keys (`YamlDump.v`), composed with the loader of C46; induction over the nesting of objects | PyYAML's writing and reading taken as inverse; `__post_init__` hooks left out |
| C94 | `generate_signals_for_snr_computation` with batch runs (`BatchSnr.v` over `BatchSig.v`); outputs as those of network-wide filters, linearity of the fused signals, refutation by a one-node network for any correct inversion | no GEVD; STFT domain |
| C95 | record of condition numbers of a node (`CondNum.v`); invariant over the updates | `np.linalg.cond` arbitrary |
| C96 | first half of `evaluate_simulation_results` (`DemoEval.v`); induction on frames | real numbers, one node; values of the ratios not modelled |
| C97 | both closed-loop classes (`Loop.v` over `Resamp.v`, `Dxcp.v`, `Phat.v`); one invariant for a generic controller, linking the loop to runs of the resampler, the estimator and the controller | real numbers; no convergence claim |
| C98 | `getSNR`, `get_snr_old`, `compute_node_snr` (`SnrMix.v`); induction on the samples | real numbers, boolean VAD; queue of results not modelled |

Properties whose full statement is false of the code have a `_refuted` theorem with
a concrete witness, next to the strongest true version; the statement in
`properties.jsonl` says which version is claimed.  No property is left out as
inexpressible.

## Not modelled

* `d_base.py`: plotting and printing, window construction by scipy (windows are
  arbitrary lists), networkx itself (Prim's algorithm is modelled after its
  documentation, C75), random draws of `init_complex_filter`/`init_covmats` (initial values are
  arbitrary), ASC-related parameters.
* `d_classes.py`: in complete runs, the SRO
  estimator (estimates are given there; C71 has the estimator with the
  compensation), the golden-section search of paderwasn, the (never called) online MMSE cost, memory clean-up.  In complete TI-DANSE runs (`TiRun.v`) centralised and SSBC
  estimates and SRO compensation are left out.
* `d_core.py`: timing, printing, `format_output`; `d_post.py`: figures, export
  other than the 16-bit conversion and the network-wide filters; `d_eval.py`: PESQ,
  the band-pass filters of scipy and the spectral part of fwSNRseg (arbitrary functions in
  `Eval.v`), and the plots.
* `siggen/`: acoustics (pyroomacoustics), file reading, random positions; the
  resampler `resampy` inside `resample_for_sro` is an arbitrary function of known
  length.
* `dxcpphat/`: convergence of the closed loop; the demo other than its topology helpers and
  the first half of its evaluation.

## Findings

Behaviours of the code met while modelling.  Those with a theorem are marked; the
others were only read.

1. Whole-chunk broadcasting: the first update reports `N - Ns` missing samples (C12).
2. Whole-chunk compression raises for three or more hops per frame and without
   overlap; an all-zero block is not normalised, which changes later output (C21, C30).
3. `get_sequential_update_instants` with lists of unequal lengths (C08).
4. The event matrix is built as for DANSE when a topology-independent run has no
   fusion instant.
5. With `upTDfilterEvery`/update periods above one frame the root of the tree is not
   the updating node (C07); `treeFormationAlgorithm` is ignored.
6. `broadcast`: `nSamplesToBC` may be unbound for a short last frame;
   `fill_buffers_centr` raises for an empty chunk (C17).
7. A later iteration with more than `DFTsize` buffered samples raises ValueError.
8. `conditional_scm_updating` gates the centralised matrices by the counters of the
   node's own VAD: frames are lost with `use1stFrameAsBasis` (C26).
9. A skipped, not bypassed, update leaves the centralised filter of the next
   iteration at its initial value (C28); initial filters of type 'random' differ per
   iteration, so they are not held (C28).
10. `compensate_sros`: wrong indices for the centralised drift; `q` unbound when
    the node has no neighbour (C51).  Closed-loop `build_phase_shifts` restarts.
11. `normalize_filter_coeff`, `back_to_time_domain` write into their argument.
12. Negative broadcast lengths, unknown types, and a default longer than the hop
    pass the validation (C32).
13. `update_sro_estimates` uses a negative slice stop; `get_y_tilde_batch(k, False)`
    and `batch_estimates` initialisation in online mode fail.
14. `prime_factors` divides in floating point (C33 holds below 2^53).
15. Trailing nodes without sensors are dropped (C34); local reference index mixes
    sensor and node indices (C54); `d` is sized by `wasn[referenceSensor]`.
16. Looping an empty source file never terminates (C36).
17. `get_vad_per_frame` returns one more entry than there are complete frames (C37);
    final silence is never counted (C38).
18. `oracleVAD` raises for windows shorter than two samples (C39).
19. `random_points_on_line` bounds; spacing of linear arrays differs from the
    requested one.
20. Noise-only signals use the self-noise of sensor 0 (C52); `build_wasn` adds
    diffuse noise in place; `setThoseSensorsToNoise = [0]` is ignored
    (`any([0])`); `resample_for_sro` raises for fewer than two samples.
21. `get_dynamic_metric` passes arguments in the wrong positions, may raise
    IndexError and returns longer arrays than chunks (C49); `getSNR` takes
    20 log10 of a power ratio.
22. `DXCPPhaT`: the initialisation branch of the second cross-spectrum is never
    taken; `get_oracle_acs` ignores the delay; the online resampler returns a view
    (C43); the root of the tree is accepted as a first-level branch root (C45).
23. JSON `save`/`load` always raise; `dataclasses_equal` is not symmetric (C47);
    strings "[...]" in YAML become lists, unknown keys become attributes (C46);
    `wipe_folder` only prints deletion failures (C48).
24. `normalize_toint16` overflows for a negative peak and flips the sign of
    all-negative signals (C50).
25. `remove_silent_frames` does not reproduce the signal at its ends (C55).
26. `compute_netwide_danse_filts` pairs a filter with the external filters of the
    next iteration (C53).
27. `dist_fct_approx` weights the impulse response at lag j with the window
    correlation at lag j+1 (C67). There is no delay, but a flat filter attenuates by
    the window correlation at lag one over the hop (1-1/N for rectangular windows
    with half overlap) although the windows overlap-add to one.
28. Re-runs with given filters recompute SRO estimates from the component, so
    components only add up with oracle or no estimates (C30).
29. Online correlations carry a factor 1/number of channels that batch ones do not
    (C61): harmless for the filters (C31 scale invariance) unless both are mixed.
30. `set_tree_root` does not reset the types of an old root; a zero-length edge of
    the minimum spanning tree is lost; `run_simulation_parallel` zeroing leaves the
    last frame; `DANSEoutputs.save(light)` / `check_init` mistakes.
31. TI-DANSE divides by the last filter coefficient, which is zero for the default
    initialisation (`selectFirstSensor`), the default fixed value and with
    `onlyBroadcastRefSensorSigs`; the check in `TestParameters` is commented out (C65).
32. The centralised estimator marks a frame as active if one node does; nodes use
    their own VAD: bounds of C62 between the two hold when all VADs agree.
33. The sensor index `referenceSensor` is used as a node index in `d_base.py` 507,
    `d_classes.py` 468, 793 and 1270.
34. `get_mmse_cost` and batch estimates leave out the last frame and a hard-coded
    number of samples.
35. The default WOLA windows are square roots of numpy's symmetric Hann window and do
    not overlap-add to one: gain (1+cos(pi/(N-1)))/2 at the first sample of each hop
    (half overlap); `rect` windows amplify by N/Ns, `rect_normNs` is exact only at half
    overlap (C66).
36. The least-squares SRO estimator divides by half the slope and pairs the bins of the
    negative frequencies in reverse order; together this gives the gain
    2K(K+1)/((K-1)(2K-1)) instead of 1 (C71).
37. Closed-loop SRO estimation adds the residual to an entry of the iteration that is
    zero instead of to the previous estimate: the estimate stays below alphaEps times
    the offset (C71_closed_loop_refuted).
38. `update_sro_estimates` multiplies the flags, which count samples, by
    `broadcastLength`; the compensation does not (C71_flags_refuted).
39. With `estEvery` above 1 the estimates are zero between the instants, and the phase
    shifts do not move there (C71_sparse_estimates_refuted).
40. With filters given in advance `yyH` is not filled, and the closed loop divides by
    zero (nan).
41. `check_clock_jitter` rounds intervals to a unit between 10 and 100 ppm of the
    interval; the comment says 1 ppm.  The inferred frequencies, not `node.fs`, select the
    samples of the frames: one sample late or more (C72).
42. TI-DANSE with `broadcastType='fewSamples'` and fewer samples per broadcast than
    `Ns` (the default is 1): `zLocalPrime` keeps `N-Ns` samples and gets the few new
    ones, so frames are too short and the first update raises ValueError
    (C73_few_samples_refuted).  With few samples the fused signal is not divided by the
    coefficient of the in-network sum, unlike with whole chunks.
43. TI-DANSE with relaxed external filters (the default for simultaneous updating) and
    the default initialisation divides by zero in the first fusion after updates are
    enabled (C73_relaxed_fusion_refuted).
44. `normalize_filter_coeff` divides the coefficient of the in-network sum of node 0 by
    itself, from one second on: always 1, or nan before updates are enabled
    (C73_first_node_coefficient, C73_first_node_undefined_refuted).
45. Nothing calls `estimate_local_clock_drift`: the SRO compensation of TI-DANSE shifts
    by zero.
46. `base_event_checks` compares the frequencies with that of the node whose index is
    `referenceSensor` (d_base.py 507): IndexError when there is no such node
    (C72_reference_sensor_refuted).
47. Pruning weighs links by distance and then keeps links of positive weight
    (`adjMat[:, k] > 0`, d_base.py 2218): linked nodes at the same place always break the
    pruned network apart, a node may be left out of the ordering and its events are then
    dropped silently (C75_colocated_refuted, C75_ex_colocated).
48. Without positions (`nodePosition = None`, siggen/utils.py 1319) the test for equal
    positions raises TypeError, so that the branch meant for that case (d_base.py 2151) is
    never reached (C75_without_positions_refuted).
49. A signal with a single utterance has no "end of the first utterance": the silence after
    it has no further change of the VAD, and `get_key_time` raises IndexError, although
    'beginning_2nd_utterance' is the default start of the metrics
    (`C76_one_utterance_refuted`).
50. `gamma` is passed in the position of `overlap` of `get_fwsnrseg` (d_eval.py 236-243,
    439-441); the exponent is always 0.2 (`C77_gamma_refuted`).
51. The bands of the weighted SNR are designed with `fs=2*np.pi` but edges divided by the
    sampling frequency: they lie below by a factor of two pi (`C77_bands_refuted`).
52. The dynamic SNR calls `get_snr(signal, VAD)`: the VAD is taken for the noise
    (`C77_dynamic_snr_refuted`).
53. The PESQ of the single-sensor estimate takes `filtSpeech_ssbc` as reference
    (`C77_pesq_ssbc_refuted`); `diffLocal`, `diffCentr` and `diffSSBC` are never computed
    (`C77_other_differences_refuted`); the default `vad=None` raises TypeError
    (`C77_without_vad_refuted`).
54. `set_tree_root` divides the power of the whole signal by that of its active part and
    takes the maximum: the node with the worst signal-to-noise ratio becomes the root
    (`C78_worst_snr_refuted`).
55. Linear arrays space `Mk` sensors over `Mk * micSep` with `np.linspace`: neighbours are
    `micSep * Mk / (Mk - 1)` apart (`C79_spacing_refuted`).
56. `minDistToWalls` holds for nodes, not for sensors, which can leave the room
    (`C79_walls_refuted`); the check of `interSensorDist` in
    `AcousticScenarioParameters.__post_init__` is overridden and never made.
57. `random_points_on_line` is called with the offsets of the line in the places of
    `minDistToWalls` and `maxR`: the line goes through a corner of the room
    (`C80_offset_refuted`).  Points drawn again for the spacing are not checked against the
    room (`C80_points_refuted`).
58. The check of spinning-top layouts compares `[3 x n]` source coordinates with a vector
    of three dimensions: ValueError unless `n` is 1 or 3 (`C80_numbers_refuted`), too strict
    for 1 (`C80_one_source_refuted`), the wrong dimensions for 3
    (`C80_three_sources_refuted`).
59. 'vert_spinning_top' sets the height of the circle to 0, below `minDistToWalls`: no
    layout is ever accepted (`C80_vertical_refuted`).
60. `spinTop_minInterNodeDist` is used as radius of the circle: seven nodes or more can be
    closer to each other (`C80_inter_node_refuted`).
61. Random pauses ignore `randPauseSpacing_min`, `randPauseSpacing_max` and
    `startWithPause`; pause durations adding to 0 raise ZeroDivisionError; a distribution
    that is not known raises UnboundLocalError (`C81_other_distribution`); 'normal' takes
    the largest bound as standard deviation.
62. Immediate decay with a duration below one sample raises IndexError
    (`C81_immediate_too_short`).
63. `room.rir[ii][-0:]` is the whole list: without noise sources the noise responses are
    those of the desired sources (`C82_no_noise_sources_refuted`; they are not used then).
64. With two desired sources or more the activity per frame converts an
    array to a float: TypeError (`C82_several_targets_refuted`).
65. With the SNR defined at a microphone each of several noise sources gets it alone: the
    total SNR is lower (`C82_mic_snr_several_refuted`, bounded by `C82_mic_snr_several`).
    Normalisation does not remove the mean, despite the comment
    (`C82_normalised_power`): the dry SNR is exact for signals of zero mean only.
66. `any(p.setThoseSensorsToNoise)` is False for `[0]`: replacing the first sensor alone has
    no effect (`C83_first_sensor_refuted`).
67. Added noise sensors are not added to the signals without sampling rate offsets
    (`C83_added_without_offsets_refuted`); data, speech and noise of an added sensor are the
    same signal (`C83_added_mixture_refuted`); `prep_for_danse` adds their number to the
    parameters at every call (`C83_prepared_twice_refuted`).
68. `_select_random_files_from_folder` removes files from the list it iterates over: after
    every removal one file is not looked at, so that a file and its resampled version can
    both be chosen as noise sources (`C84_duplicates_refuted`).
69. `init_covmats` draws all entries independently: the matrices are Hermitian only for
    symmetric draws (`C85_random_hermitian`), and otherwise those of the run never are
    (`C85_default_refuted`).  What is missing shrinks with every frame
    (`C85_start_forgotten`).
70. In a topology-independent network of a single node the initial matrices are smaller than
    the signals (`C85_single_node_refuted`).
71. `build_yssbc` takes the first sensor of every other node, whichever the reference sensor
    is (`C86_reference_refuted`).
72. `TestParameters.__post_init__` compares the updating to 'sim' exactly: 'topo-indep_sim'
    is accepted with sampling rate offsets (`C87_simultaneous_refuted`; the run then stops in
    `base_event_checks` if it is an online run).
73. The question about batch runs with offsets is asked for a type of simulation that
    `DANSEparameters` refuses: it is never asked, and batch runs with offsets are accepted
    (`C87_batch_question`, `C87_batch_offsets_refuted`).
74. A fully connected network keeps 'topo-indep_..' updating
    (`C87_fully_connected_refuted`); a start of the metrics without unit raises
    `UnboundLocalError` (`C87_start_unit`); with a hop of zero accepted settings are refused
    when loaded (`C87_loaded_hop_zero_refuted`).
75. The batch estimates leave out the last frame ("FIXME: why?"): if the signals end with a
    complete frame there is one frame too few and numpy raises a `ValueError`
    (`C88_full_frame_refuted`), or repeats the first frame if there are two
    (`C88_two_frames_refuted`).  The best performance reference handles both cases.
76. Without overlap the VAD has one frame less than a signal that does not end with a
    complete frame: the batch correlation matrices raise an `IndexError`
    (`C88_no_overlap_refuted`).
77. The MMSE cost of batch runs leaves out 1000 samples at both ends, that of the centralised
    and local estimates does not (`C88_cost`, `C88_cost_ends_refuted`): they are not
    comparable, and the former is NaN for signals of up to 2000 samples.
78. `DXCPPhaT` reports silence as an offset of about -1000 ppm: all correlations are equal
    and the first one, the most negative lag, is taken for the peak
    (`C89_silence_refuted`, `C89_silence_saturates_refuted`).  Only the activity flag of the
    caller protects the controllers.
79. The accumulated shift is removed with the phase of the frequencies 0 .. N-1 instead of
    -N/2 .. N/2-1: the result is not the spectrum of a real signal, and taking the real part
    multiplies by the cosine of the shift (`C90_attenuated_refuted`,
    `C90_half_sample_refuted`).
80. The window given to `signal.resample` is an array, which scipy applies as it is: the
    Kaiser window is largest at the highest frequencies instead of the lowest.  A single
    peak is still found exactly (`C89_single_peak`).
81. `build_room` creates the room from the configured dimensions before it reads a
    predefined layout; the layout's dimensions then replace the configured ones and are
    compared with themselves.  The check never fails, and the simulated room is not the
    one of the layout (`C92_room_refuted`, `C92_dimensions_never_rejected_refuted`).
82. A predefined layout with fewer sensor positions than sensors is accepted as long as no
    node is left without position (`C92_missing_positions_refuted`); with
    `generateRandomWASNwithSeed` the layout's sensors are shared out among the nodes of the
    random network (`C92_random_network_refuted`).
83. Exporting a configuration and loading it again turns an array held in a list field
    (`nSensorPerNode` after a layout has been loaded) into a list, and a string in brackets
    into a list or an error (`C93_array_in_list_field_refuted`,
    `C93_bracketed_string_refuted`).
84. `danse_batch` and `tidanse_batch` ignore pre-given filters: the speech-only and
    noise-only runs of `generate_signals_for_snr_computation` estimate filters of their own
    (`C94_parts_add_up_refuted`, `C94_stationary_noise_vanishes`).
85. `compute_batch_mse_cost` (never called) divides the pair returned by `get_istft` by a
    number: it would raise a `TypeError`.
86. `evaluate_simulation_results` (`dxcpphat/demo_utils.py`) converts frames to seconds with a
    fixed frame length of 2048 (`C96_frame_length_refuted`), and computes no ratio for estimates
    that are good from the first frame on, with a warning that blames the length of the signal
    (`C96_good_estimates_refuted`).
87. Both `process` methods of the closed loops overwrite the frame of the caller with the
    delayed and resampled channels (not modelled).  A silent reference drives the simple loop
    to -100 ppm, so that the other channel is resampled (`C97_silence_refuted`).
88. `getSNR` takes 20 log10 of a ratio of powers, twice the number of decibels, and fails if
    the VAD is shorter than the signal (`C98_vad_decibels_refuted`,
    `C98_vad_short_refuted`).  `compute_node_snr` smooths with zeros beyond the ends: the
    smoothed SNR is too low within half a window (five seconds) of them, down to minus
    infinity for short signals (`C98_smoothed_edges_refuted`).

## Trusted base

* Coq's kernel (8.16.1), `coqc`; no plugin of our own, no kernel check switched off.
* The reading of the Python sources documented at each definition and above.
* No axiom of our own.  Axioms of the standard library used through the real
  numbers, as printed by `Print Assumptions`:
  `ClassicalDedekindReals.sig_forall_dec` (A),
  `ClassicalDedekindReals.sig_not_dec` (B),
  `FunctionalExtensionality.functional_extensionality_dep` (C),
  `Classical_Prop.classic` (D).

### Assumptions per theorem

Closed under the global context (175 theorems): `C01_run_schedule_exact`, `C01_schedule_exact`, `C02_broadcast_before_update`, `C03_tree_order`, `C04_missing_node_dropped`, `C04_sorting_keeps_events`, `C04_tree_schedule_exact`, `C05_no_opportunity_missed`, `C05_round_robin`, `C06_exact_when_not_sequential`, `C06_spacing`, `C07_root_is_updating_node`, `C07_update_every_2_refuted`, `C08_always_terminates`, `C08_sequential_instants`, `C08_unequal_lengths_refuted`, `C09_on_sample_grid`, `C10_efficient_broadcast_instants`, `C11_iterations_suffice`, `C12_few_samples_no_flags`, `C12_whole_chunk_flags`, `C12_whole_chunk_refuted`, `C13_broadcast_reaches_neighbours`, `C13_few_samples_helper`, `C13_one_buffer_per_neighbour`, `C14_lossless_fifo`, `C14_received_since_last_read`, `C14_total`, `C14_update_reads`, `C15_assembly_succeeds`, `C15_flags_account_for_samples`, `C15_frame_and_flag`, `C16_multiple_of_L`, `C16_never_too_many`, `C16_total_is_elapsed`, `C17_empty_chunk_fails`, `C17_incoming_raw`, `C17_raw_broadcast`, `C17_slots_bijective`, `C17_stacking`, `C18_beyond_the_recording`, `C18_broadcast_chunk`, `C18_every_event_of_a_run`, `C18_update_chunk`, `C23_orientation`, `C23_terminates`, `C24_leaf_to_root`, `C25_never_stops`, `C25_updates_at_every_event`, `C25_updates_start_late_enough`, `C26_centralised_frame_lost_refuted`, `C26_counters`, `C26_one_matrix_per_frame`, `C28_batch_sequential`, `C28_batch_simultaneous`, `C28_filters_held`, `C28_random_start_refuted`, `C28_skipped_centralised_refuted`, `C32_accepted_iff`, `C32_broadcast_length`, `C32_default_longer_than_hop_refuted`, `C32_dft_size_positive`, `C32_other_fields`, `C32_positive_refuted`, `C32_unknown_type_refuted`, `C33_divisors_exactly_once`, `C35_contiguous_blocks`, `C35_partition`, `C35_selection`, `C35_total_length`, `C36_empty_never_terminates`, `C36_looped_or_truncated`, `C37_complete_frames`, `C37_empty_rejected`, `C37_vad_per_frame`, `C38_beginning_first`, `C38_final_silence_refuted`, `C38_first_utterance`, `C39_window`, `C42_delay_line`, `C42_write_then_read`, `C42_zero_length_raises`, `C44_large_frames_never_refresh`, `C44_refresh`, `C45_accepted_iff`, `C45_delay_vs_reference`, `C45_delays`, `C45_leaf_once`, `C45_same_reference_refuted`, `C46_accepted_files`, `C46_file_values_are_loaded`, `C46_other_fields_are_kept`, `C46_unknown_names_refuted`, `C47_agreement`, `C47_equality_without_arrays`, `C47_extra_attributes_refuted`, `C47_reflexive`, `C47_symmetry_refuted`, `C47_unequal_arrays_refuted`, `C48_changes`, `C48_consent`, `C48_refusal`, `C49_chunks_inside`, `C49_entries_refuted`, `C49_small_overlap_refuted`, `C49_steps`, `C49_succeeds`, `C49_terminates`, `C50_all_negative_refuted`, `C50_negative_peak_refuted`, `C50_normalised`, `C54_first_microphone`, `C54_raises_refuted`, `C54_refuted`, `C54_right_iff`, `C68_latest_samples`, `C74_schedule`, `C75_without_positions_refuted`, `C76_beginning_first`, `C76_beginning_second`, `C76_end_first`, `C76_one_utterance_refuted`, `C76_window`, `C77_without_vad_refuted`, `C81_regular_in_samples`, `C82_combined_activity`, `C82_responses`, `C82_several_targets_refuted`, `C83_accepted`, `C83_added_without_offsets_refuted`, `C83_added`, `C83_first_sensor_refuted`, `C83_forced_factor`, `C83_per_node_values`, `C83_prepared_twice_refuted`, `C83_replaced`, `C83_room_size`, `C84_any_candidate`, `C84_duplicates_refuted`, `C84_no_duplicates`, `C84_no_noise_lost`, `C84_option`, `C84_resampled_name`, `C84_selected`, `C86_centralised_channel`, `C86_reference_refuted`, `C86_stacking`, `C87_accepted_iff`, `C87_batch_offsets_refuted`, `C87_batch_question`, `C87_consistent`, `C87_exports`, `C87_fully_connected_refuted`, `C87_loaded_again`, `C87_loaded_hop_zero_refuted`, `C87_question`, `C87_refused_answer`, `C87_simultaneous_refuted`, `C87_start_seconds`, `C87_start_unit`, `C87_unchanged`, `C88_frames`, `C92_accepted_iff`, `C92_as_laid_out`, `C92_dimensions_never_rejected_refuted`, `C92_missing_positions_refuted`, `C92_random_network_refuted`, `C92_room_refuted`, `C93_array_in_list_field_refuted`, `C93_bracketed_string_refuted`, `C93_into_itself`, `C93_round_trip`, `C95_not_saved`, `C95_number`, `C95_recorded`.

Axioms A (11 theorems): `C19_out_of_range`, `C51_last_node_refuted`, `C65_sent_signals_match_filter`, `C65_ti_default_divides_by_zero_refuted`, `C65_ti_division_defined_iff`, `C69_replay_settings`, `C82_no_noise_sources_refuted`, `C85_same_everywhere`, `C85_single_node_refuted`, `C85_sizes`, `C85_unknown_type`.

Axioms A, C (78 theorems): `C19_compression`, `C19_samples_of_convolution`, `C22_every_instant_of_a_run`, `C22_in_network_sum`, `C27_batch_hermitian_psd`, `C27_hermitian_psd`, `C29_fixed_at_target`, `C29_relaxation_off`, `C29_relaxed_step`, `C29_stays_within`, `C29_target_moves_spaced`, `C31_normal_equations`, `C31_scale_invariance`, `C39_active_iff`, `C39_monotone`, `C39_peak_threshold_scale_free`, `C39_scaling`, `C39_short_window_raises`, `C44_bounded`, `C44_step`, `C51_oracle`, `C53_changing_filters_refuted`, `C53_first_iteration`, `C53_network_wide_output`, `C53_reproduces_output`, `C53_succeeds`, `C56_length_and_timestamps`, `C56_no_offset_unchanged`, `C56_node`, `C56_timestamps_increase`, `C56_total`, `C57_gevd_full_rank`, `C57_gevd_span`, `C59_first_effect`, `C59_silent_when_inactive`, `C59_start_delay`, `C61_batch_mean`, `C61_first_frame_as_basis`, `C61_online_weights`, `C61_weights_total`, `C62_local_filter_optimal`, `C62_sequential_update_optimal`, `C62_simultaneous_update_optimal`, `C63_error_never_grows`, `C64_centralised_filter_kept`, `C65_initial_output_is_reference`, `C65_random_mismatch_refuted`, `C72_frame_end_exact`, `C72_frame_end_late`, `C72_frame_end`, `C72_rounding`, `C75_same_place`, `C80_three_sources_refuted`, `C81_no_pauses`, `C81_other_distribution`, `C81_random_pauses`, `C81_regular_pauses`, `C83_added_mixture_refuted`, `C85_default_refuted`, `C85_first_frame`, `C85_hermitian_iff_at_start`, `C85_identity`, `C85_random_hermitian`, `C85_random_range`, `C85_start_forgotten`, `C85_valid_runs`, `C88_activity`, `C88_cost_ends_refuted`, `C88_cost`, `C88_no_overlap_refuted`, `C89_silence_saturates_refuted`, `C94_complete`, `C94_kept_filters`, `C94_networkwide_output`, `C94_parts_add_up_refuted`, `C94_stationary_noise_vanishes`, `C96_residual_offset`, `C98_tracker_range`.

Axioms A, B, C (146 theorems): `C20_real_result`, `C20_rejects`, `C20_round_trip`, `C21_after_silence_refuted`, `C21_no_overlap_fails`, `C21_reconstruction_positive_window`, `C21_reconstruction`, `C21_three_hops_fail`, `C30_few_samples`, `C30_whole_chunk_refuted`, `C30_whole_chunk`, `C34_distance`, `C34_fully_connected`, `C34_one_list_per_node`, `C34_random`, `C34_sensorless_node_dropped_refuted`, `C34_symmetric_irreflexive_sorted`, `C34_unknown_rejected`, `C34_user_accepted_iff`, `C34_user_edges`, `C41_axis`, `C41_count`, `C41_distances`, `C41_proper`, `C43_crossfade`, `C43_integer_delay`, `C43_resampling`, `C43_returned_block_is_a_view`, `C43_shift_bounded`, `C43_total_in_range`, `C43_whole_samples`, `C43_zero_offset_two_blocks`, `C51_centralised_drift_refuted`, `C51_centralised`, `C51_neighbour_channels`, `C60_channels_aligned`, `C66_danse_output`, `C66_default_windows_refuted`, `C66_local_output`, `C66_rectangular_windows`, `C66_run_output`, `C66_run_reproduces_reference`, `C66_selecting_filters`, `C67_samples_sent`, `C67_selecting_filters`, `C67_time_domain_filter`, `C67_unit_gain_refuted`, `C68_aligned`, `C68_completes`, `C68_frames_in_runs`, `C68_neighbour_output`, `C68_reference_received`, `C69_broadcasts`, `C69_compensated_observations`, `C69_completes`, `C69_components`, `C69_estimates`, `C69_filters`, `C69_matrices`, `C69_observations`, `C69_optimal`, `C69_replay_run`, `C69_replay`, `C70_chunks_sent`, `C70_fused_received`, `C70_neighbour_output`, `C73_completes`, `C73_estimated_filter`, `C73_few_samples_refuted`, `C73_filter_renewal`, `C73_first_node_coefficient`, `C73_first_node_undefined_refuted`, `C73_first_second`, `C73_fused_signal`, `C73_ideal_exchange`, `C73_outputs`, `C73_relaxed_fusion_refuted`, `C73_topology_independent`, `C74_completes`, `C74_topology_independent`, `C75_colocated_refuted`, `C75_completes`, `C75_minimum`, `C75_network_independent`, `C75_spanning_tree`, `C79_centre`, `C79_grid`, `C79_linear`, `C79_radius_apart`, `C79_radius`, `C79_random`, `C79_rotation`, `C79_spacing_refuted`, `C79_walls_refuted`, `C80_accepted`, `C80_first_inside`, `C80_inter_node_refuted`, `C80_inter_node`, `C80_numbers_refuted`, `C80_offset_refuted`, `C80_one_source_refuted`, `C80_perpendicular`, `C80_points_refuted`, `C80_points`, `C80_vertical_refuted`, `C81_immediate_too_short`, `C81_immediate`, `C81_impulse_responses`, `C82_normalised_power`, `C88_batch_same`, `C88_best_total`, `C88_full_frame_refuted`, `C88_superposition`, `C88_transparent`, `C88_two_frames_refuted`, `C89_defined`, `C89_gains`, `C89_range`, `C89_silence_refuted`, `C89_single_peak`, `C89_synchronous`, `C89_waits`, `C89_weighted`, `C90_attenuated_refuted`, `C90_delay`, `C90_half_sample_refuted`, `C90_range`, `C90_whole_samples`, `C96_error_bounds`, `C96_error_forgets`, `C96_error_weights`, `C96_frame_length_refuted`, `C96_good_estimates_refuted`, `C96_ratio_computed`, `C96_settling_time`, `C97_inactive_imc`, `C97_inactive_simple`, `C97_parts_imc`, `C97_parts_simple`, `C97_resampled_imc`, `C97_resampled_simple`, `C97_silence_refuted`, `C97_total_imc`, `C97_total_simple`, `C97_waits_imc`, `C97_waits_simple`.

Axioms A, B, C, D (69 theorems): `C40_snr_exact`, `C52_decomposition`, `C52_first_sensor`, `C52_other_sensors_refuted`, `C55_exact_reproduction_refuted`, `C55_nothing_dropped`, `C55_same_frames_in_both`, `C55_succeeds`, `C55_too_short`, `C58_mic_snr_exact`, `C71_closed_loop`, `C71_closed_loop_refuted`, `C71_flags_refuted`, `C71_least_squares_gain`, `C71_open_loop`, `C71_open_loop_range`, `C71_open_loop_remaining`, `C71_runs_complete`, `C71_sparse_estimates_refuted`, `C72_different_frequencies_refused`, `C72_frequency_within`, `C72_jitter_detected`, `C72_no_jitter_refuted`, `C72_nominal`, `C72_offset_lost_refuted`, `C72_reference_sensor_refuted`, `C72_rounded_refuted`, `C72_same_frequency_required`, `C77_bands_refuted`, `C77_best`, `C77_differences`, `C77_dynamic_snr_refuted`, `C77_fwsnrseg_range`, `C77_gains`, `C77_gamma_refuted`, `C77_improvement`, `C77_no_processing`, `C77_other_differences_refuted`, `C77_pesq_ssbc_refuted`, `C77_snr_value`, `C77_values`, `C77_window_only`, `C78_largest_measure`, `C78_root_exists`, `C78_worst_snr_refuted`, `C82_activity`, `C82_dry_snr`, `C82_mic_snr`, `C82_mic_snr_several`, `C82_mic_snr_several_refuted`, `C82_wet_signals`, `C83_forgetting_factor`, `C85_half_life`, `C91_as_neighbours`, `C91_closed_loop_refuted`, `C91_open_loop`, `C91_own`, `C91_runs_complete`, `C91_sensors`, `C98_constant_power`, `C98_smoothed_edges_refuted`, `C98_smoothed_inside`, `C98_trajectory`, `C98_vad_decibels_refuted`, `C98_vad_defined`, `C98_vad_extremes`, `C98_vad_gain`, `C98_vad_longer`, `C98_vad_short_refuted`.
