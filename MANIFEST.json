{
 "claims": [
  {
   "property": "C01",
   "status": "proved",
   "theorems": [
    "C01_schedule_exact",
    "C01_run_schedule_exact"
   ],
   "note": ""
  },
  {
   "property": "C02",
   "status": "proved",
   "theorems": [
    "C02_broadcast_before_update"
   ],
   "note": ""
  },
  {
   "property": "C03",
   "status": "proved",
   "theorems": [
    "C03_tree_order"
   ],
   "note": ""
  },
  {
   "property": "C04",
   "status": "proved",
   "theorems": [
    "C04_tree_schedule_exact",
    "C04_sorting_keeps_events",
    "C04_missing_node_dropped"
   ],
   "note": "missing_node_dropped: a node absent from the given order loses its events; the order computed for a tree contains every node"
  },
  {
   "property": "C05",
   "status": "proved",
   "theorems": [
    "C05_round_robin",
    "C05_no_opportunity_missed"
   ],
   "note": ""
  },
  {
   "property": "C06",
   "status": "proved",
   "theorems": [
    "C06_spacing",
    "C06_exact_when_not_sequential"
   ],
   "note": ""
  },
  {
   "property": "C07",
   "status": "proved",
   "theorems": [
    "C07_root_is_updating_node",
    "C07_update_every_2_refuted"
   ],
   "note": "true for updateEvery<=1; the failing case updateEvery=2 is the refuted theorem, as the property states"
  },
  {
   "property": "C08",
   "status": "proved",
   "theorems": [
    "C08_sequential_instants",
    "C08_always_terminates",
    "C08_unequal_lengths_refuted"
   ],
   "note": "well-formedness proved for all inputs; unequal lengths exhibited by the refuted theorem"
  },
  {
   "property": "C09",
   "status": "proved",
   "theorems": [
    "C09_on_sample_grid"
   ],
   "note": ""
  },
  {
   "property": "C10",
   "status": "proved",
   "theorems": [
    "C10_efficient_broadcast_instants"
   ],
   "note": ""
  },
  {
   "property": "C11",
   "status": "proved",
   "theorems": [
    "C11_iterations_suffice"
   ],
   "note": ""
  },
  {
   "property": "C12",
   "status": "proved",
   "theorems": [
    "C12_few_samples_no_flags",
    "C12_whole_chunk_flags",
    "C12_whole_chunk_refuted"
   ],
   "note": "whole-chunk broadcasting: the first update reports missing samples, shown by whole_chunk_refuted and covered by whole_chunk_flags"
  },
  {
   "property": "C13",
   "status": "proved",
   "theorems": [
    "C13_broadcast_reaches_neighbours",
    "C13_few_samples_helper",
    "C13_one_buffer_per_neighbour"
   ],
   "note": ""
  },
  {
   "property": "C14",
   "status": "proved",
   "theorems": [
    "C14_lossless_fifo",
    "C14_received_since_last_read",
    "C14_total",
    "C14_update_reads"
   ],
   "note": ""
  },
  {
   "property": "C15",
   "status": "proved",
   "theorems": [
    "C15_frame_and_flag",
    "C15_assembly_succeeds",
    "C15_flags_account_for_samples"
   ],
   "note": ""
  },
  {
   "property": "C16",
   "status": "proved",
   "theorems": [
    "C16_multiple_of_L",
    "C16_never_too_many",
    "C16_total_is_elapsed"
   ],
   "note": ""
  },
  {
   "property": "C17",
   "status": "proved",
   "theorems": [
    "C17_slots_bijective",
    "C17_raw_broadcast",
    "C17_incoming_raw",
    "C17_stacking",
    "C17_empty_chunk_fails"
   ],
   "note": "empty chunks raise ValueError (empty_chunk_fails)"
  },
  {
   "property": "C18",
   "status": "proved",
   "theorems": [
    "C18_broadcast_chunk",
    "C18_update_chunk",
    "C18_every_event_of_a_run",
    "C18_beyond_the_recording"
   ],
   "note": "chunks that would start beyond the recording are characterised by beyond_the_recording"
  },
  {
   "property": "C19",
   "status": "proved",
   "theorems": [
    "C19_samples_of_convolution",
    "C19_out_of_range",
    "C19_compression"
   ],
   "note": ""
  },
  {
   "property": "C20",
   "status": "proved",
   "theorems": [
    "C20_round_trip",
    "C20_real_result",
    "C20_rejects"
   ],
   "note": ""
  },
  {
   "property": "C21",
   "status": "proved",
   "theorems": [
    "C21_reconstruction",
    "C21_reconstruction_positive_window",
    "C21_after_silence_refuted",
    "C21_three_hops_fail",
    "C21_no_overlap_fails"
   ],
   "note": "three or more hops per frame and zero overlap raise; an all-zero frame is not normalised (after_silence_refuted)"
  },
  {
   "property": "C22",
   "status": "proved",
   "theorems": [
    "C22_in_network_sum",
    "C22_every_instant_of_a_run"
   ],
   "note": ""
  },
  {
   "property": "C23",
   "status": "proved",
   "theorems": [
    "C23_terminates",
    "C23_orientation"
   ],
   "note": ""
  },
  {
   "property": "C24",
   "status": "proved",
   "theorems": [
    "C24_leaf_to_root"
   ],
   "note": ""
  },
  {
   "property": "C25",
   "status": "proved",
   "theorems": [
    "C25_updates_start_late_enough",
    "C25_never_stops",
    "C25_updates_at_every_event"
   ],
   "note": ""
  },
  {
   "property": "C26",
   "status": "proved",
   "theorems": [
    "C26_one_matrix_per_frame",
    "C26_counters",
    "C26_centralised_frame_lost_refuted"
   ],
   "note": "centralised matrices with use1stFrameAsBasis: centralised_frame_lost_refuted"
  },
  {
   "property": "C27",
   "status": "proved",
   "theorems": [
    "C27_hermitian_psd",
    "C27_batch_hermitian_psd"
   ],
   "note": "exact real arithmetic"
  },
  {
   "property": "C28",
   "status": "proved",
   "theorems": [
    "C28_filters_held",
    "C28_random_start_refuted",
    "C28_skipped_centralised_refuted",
    "C28_batch_sequential",
    "C28_batch_simultaneous"
   ],
   "note": "holds for DANSE and local filters in all cases; failing cases of the centralised filter and of random initialisation are the refuted theorems"
  },
  {
   "property": "C29",
   "status": "proved",
   "theorems": [
    "C29_relaxed_step",
    "C29_relaxation_off",
    "C29_stays_within",
    "C29_target_moves_spaced",
    "C29_fixed_at_target"
   ],
   "note": ""
  },
  {
   "property": "C30",
   "status": "proved",
   "theorems": [
    "C30_few_samples",
    "C30_whole_chunk",
    "C30_whole_chunk_refuted"
   ],
   "note": "SRO estimates are given (oracle or none); whole-chunk case needs frames of the components to be silent together or flat normalisation, shown necessary by whole_chunk_refuted"
  },
  {
   "property": "C31",
   "status": "proved",
   "theorems": [
    "C31_normal_equations",
    "C31_scale_invariance"
   ],
   "note": "for every exact inverse"
  },
  {
   "property": "C32",
   "status": "proved",
   "theorems": [
    "C32_accepted_iff",
    "C32_dft_size_positive",
    "C32_broadcast_length",
    "C32_other_fields",
    "C32_positive_refuted",
    "C32_unknown_type_refuted",
    "C32_default_longer_than_hop_refuted"
   ],
   "note": "exact acceptance condition; the three refuted theorems are settings that are accepted although they should not"
  },
  {
   "property": "C33",
   "status": "proved",
   "theorems": [
    "C33_divisors_exactly_once"
   ],
   "note": "integer arithmetic: exact for inputs below 2^53"
  },
  {
   "property": "C34",
   "status": "proved",
   "theorems": [
    "C34_symmetric_irreflexive_sorted",
    "C34_one_list_per_node",
    "C34_fully_connected",
    "C34_distance",
    "C34_random",
    "C34_user_accepted_iff",
    "C34_user_edges",
    "C34_unknown_rejected",
    "C34_sensorless_node_dropped_refuted"
   ],
   "note": "sensor-less last nodes are dropped by the code (refuted theorem)"
  },
  {
   "property": "C35",
   "status": "proved",
   "theorems": [
    "C35_contiguous_blocks",
    "C35_total_length",
    "C35_selection",
    "C35_partition"
   ],
   "note": ""
  },
  {
   "property": "C36",
   "status": "proved",
   "theorems": [
    "C36_looped_or_truncated",
    "C36_empty_never_terminates"
   ],
   "note": "an empty source never terminates, proved for every fuel"
  },
  {
   "property": "C37",
   "status": "proved",
   "theorems": [
    "C37_vad_per_frame",
    "C37_empty_rejected",
    "C37_complete_frames"
   ],
   "note": ""
  },
  {
   "property": "C38",
   "status": "proved",
   "theorems": [
    "C38_first_utterance",
    "C38_beginning_first",
    "C38_final_silence_refuted"
   ],
   "note": "final silence is never counted as a pause (refuted theorem)"
  },
  {
   "property": "C39",
   "status": "proved",
   "theorems": [
    "C39_active_iff",
    "C39_window",
    "C39_short_window_raises",
    "C39_scaling",
    "C39_peak_threshold_scale_free",
    "C39_monotone"
   ],
   "note": ""
  },
  {
   "property": "C40",
   "status": "proved",
   "theorems": [
    "C40_snr_exact"
   ],
   "note": ""
  },
  {
   "property": "C41",
   "status": "proved",
   "theorems": [
    "C41_distances",
    "C41_axis",
    "C41_proper",
    "C41_count"
   ],
   "note": ""
  },
  {
   "property": "C42",
   "status": "proved",
   "theorems": [
    "C42_delay_line",
    "C42_write_then_read",
    "C42_zero_length_raises"
   ],
   "note": ""
  },
  {
   "property": "C43",
   "status": "proved",
   "theorems": [
    "C43_total_in_range",
    "C43_shift_bounded",
    "C43_resampling",
    "C43_whole_samples",
    "C43_crossfade",
    "C43_integer_delay",
    "C43_zero_offset_two_blocks",
    "C43_returned_block_is_a_view"
   ],
   "note": "the returned block is a view overwritten by the next call (returned_block_is_a_view)"
  },
  {
   "property": "C44",
   "status": "proved",
   "theorems": [
    "C44_bounded",
    "C44_step",
    "C44_refresh",
    "C44_large_frames_never_refresh"
   ],
   "note": ""
  },
  {
   "property": "C45",
   "status": "proved",
   "theorems": [
    "C45_accepted_iff",
    "C45_leaf_once",
    "C45_delays",
    "C45_delay_vs_reference",
    "C45_same_reference_refuted"
   ],
   "note": "the tree root is accepted as a branch root on level 1 (same_reference_refuted)"
  },
  {
   "property": "C46",
   "status": "proved",
   "theorems": [
    "C46_file_values_are_loaded",
    "C46_other_fields_are_kept",
    "C46_accepted_files",
    "C46_unknown_names_refuted"
   ],
   "note": "unknown names in the file create attributes (refuted theorem)"
  },
  {
   "property": "C47",
   "status": "proved",
   "theorems": [
    "C47_agreement",
    "C47_reflexive",
    "C47_equality_without_arrays",
    "C47_unequal_arrays_refuted",
    "C47_symmetry_refuted",
    "C47_extra_attributes_refuted"
   ],
   "note": "symmetry and comparison of unequal arrays fail (refuted theorems)"
  },
  {
   "property": "C48",
   "status": "proved",
   "theorems": [
    "C48_consent",
    "C48_changes",
    "C48_refusal"
   ],
   "note": ""
  },
  {
   "property": "C49",
   "status": "proved",
   "theorems": [
    "C49_chunks_inside",
    "C49_steps",
    "C49_terminates",
    "C49_succeeds",
    "C49_small_overlap_refuted",
    "C49_entries_refuted"
   ],
   "note": "small overlaps raise, arrays are longer than the number of chunks (refuted theorems)"
  },
  {
   "property": "C50",
   "status": "proved",
   "theorems": [
    "C50_normalised",
    "C50_negative_peak_refuted",
    "C50_all_negative_refuted"
   ],
   "note": "negative peaks overflow (refuted theorems)"
  },
  {
   "property": "C51",
   "status": "proved",
   "theorems": [
    "C51_neighbour_channels",
    "C51_oracle",
    "C51_centralised",
    "C51_centralised_drift_refuted",
    "C51_last_node_refuted"
   ],
   "note": "neighbour channels proved; centralised drift is wrong in the code (refuted theorems)"
  },
  {
   "property": "C52",
   "status": "proved",
   "theorems": [
    "C52_decomposition",
    "C52_first_sensor",
    "C52_other_sensors_refuted"
   ],
   "note": "holds for the first sensor of a node; other sensors refuted"
  },
  {
   "property": "C53",
   "status": "proved",
   "theorems": [
    "C53_succeeds",
    "C53_network_wide_output",
    "C53_reproduces_output",
    "C53_first_iteration",
    "C53_changing_filters_refuted"
   ],
   "note": "exact when the filters no longer change; changing filters refuted"
  },
  {
   "property": "C54",
   "status": "proved",
   "theorems": [
    "C54_first_microphone",
    "C54_right_iff",
    "C54_refuted",
    "C54_raises_refuted"
   ],
   "note": "right exactly under the condition of right_iff; refuted in general"
  },
  {
   "property": "C55",
   "status": "proved",
   "theorems": [
    "C55_same_frames_in_both",
    "C55_succeeds",
    "C55_too_short",
    "C55_nothing_dropped",
    "C55_exact_reproduction_refuted"
   ],
   "note": "alignment proved; exact reproduction of the ends refuted"
  },
  {
   "property": "C56",
   "status": "proved",
   "theorems": [
    "C56_length_and_timestamps",
    "C56_timestamps_increase",
    "C56_no_offset_unchanged",
    "C56_node",
    "C56_total"
   ],
   "note": ""
  },
  {
   "property": "C57",
   "status": "proved",
   "theorems": [
    "C57_gevd_full_rank",
    "C57_gevd_span"
   ],
   "note": "for every exact decomposition"
  },
  {
   "property": "C58",
   "status": "proved",
   "theorems": [
    "C58_mic_snr_exact"
   ],
   "note": ""
  },
  {
   "property": "C59",
   "status": "proved",
   "theorems": [
    "C59_start_delay",
    "C59_silent_when_inactive",
    "C59_first_effect"
   ],
   "note": ""
  },
  {
   "property": "C60",
   "status": "proved",
   "theorems": [
    "C60_channels_aligned"
   ],
   "note": ""
  },
  {
   "property": "C61",
   "status": "proved",
   "theorems": [
    "C61_online_weights",
    "C61_first_frame_as_basis",
    "C61_weights_total",
    "C61_batch_mean"
   ],
   "note": ""
  },
  {
   "property": "C62",
   "status": "proved",
   "theorems": [
    "C62_sequential_update_optimal",
    "C62_simultaneous_update_optimal",
    "C62_local_filter_optimal"
   ],
   "note": "exact real arithmetic; frequencies whose matrix np.linalg.inv inverts; relaxed external filters (simultaneous) not covered"
  },
  {
   "property": "C63",
   "status": "proved",
   "theorems": [
    "C63_error_never_grows"
   ],
   "note": "single-source signals; TI-DANSE with fusion at every node and non-zero divisor"
  },
  {
   "property": "C64",
   "status": "proved",
   "theorems": [
    "C64_centralised_filter_kept"
   ],
   "note": "single-source signals"
  },
  {
   "property": "C65",
   "status": "proved",
   "theorems": [
    "C65_initial_output_is_reference",
    "C65_sent_signals_match_filter",
    "C65_random_mismatch_refuted",
    "C65_ti_division_defined_iff",
    "C65_ti_default_divides_by_zero_refuted"
   ],
   "note": "usable divisor refuted for the default type; agreement refuted for random initialisation"
  },
  {
   "property": "C66",
   "status": "proved",
   "theorems": [
    "C66_local_output",
    "C66_danse_output",
    "C66_selecting_filters",
    "C66_run_output",
    "C66_run_reproduces_reference",
    "C66_default_windows_refuted",
    "C66_rectangular_windows"
   ],
   "note": "exact reproduction refuted for the default windows; completion of runs: C68; no SRO compensation for the DANSE output"
  },
  {
   "property": "C67",
   "status": "proved",
   "theorems": [
    "C67_time_domain_filter",
    "C67_samples_sent",
    "C67_selecting_filters",
    "C67_unit_gain_refuted"
   ],
   "note": "fixed broadcast length (not efficient); unit gain refuted"
  },
  {
   "property": "C68",
   "status": "proved",
   "theorems": [
    "C68_latest_samples",
    "C68_frames_in_runs",
    "C68_completes",
    "C68_aligned",
    "C68_reference_received",
    "C68_neighbour_output"
   ],
   "note": "alignment and completion for synchronous clocks and fixed broadcast length; whole-chunk completion for frames of two hops"
  },
  {
   "property": "C69",
   "status": "proved",
   "theorems": [
    "C69_replay",
    "C69_replay_settings",
    "C69_replay_run",
    "C69_components",
    "C69_estimates",
    "C69_observations",
    "C69_compensated_observations",
    "C69_broadcasts",
    "C69_matrices",
    "C69_filters",
    "C69_optimal",
    "C69_completes"
   ],
   "note": "local estimates on; centralised and single-sensor estimates off; offset estimates given; superposition for few-samples broadcasting; completion for synchronous clocks"
  },
  {
   "property": "C70",
   "status": "proved",
   "theorems": [
    "C70_chunks_sent",
    "C70_fused_received",
    "C70_neighbour_output"
   ],
   "note": "frames of two hops; exact reception for synchronous clocks, one window without zeros for analysis and synthesis, gains constant over frequency"
  },
  {
   "property": "C71",
   "status": "proved",
   "theorems": [
    "C71_runs_complete",
    "C71_least_squares_gain",
    "C71_open_loop_range",
    "C71_open_loop",
    "C71_open_loop_remaining",
    "C71_sparse_estimates_refuted",
    "C71_closed_loop",
    "C71_closed_loop_refuted",
    "C71_flags_refuted"
   ],
   "note": "neighbour channel a delayed, filtered copy of the first local sensor with a constant offset; golden-section search an arbitrary function, assumed to find the lag; convergence to the offset refuted for the closed loop and for sparse estimates, unbiased flags refuted for broadcast lengths above one"
  },
  {
   "property": "C72",
   "status": "proved",
   "theorems": [
    "C72_frequency_within",
    "C72_jitter_detected",
    "C72_frame_end",
    "C72_frame_end_exact",
    "C72_frame_end_late",
    "C72_nominal",
    "C72_offset_lost_refuted",
    "C72_rounded_refuted",
    "C72_no_jitter_refuted",
    "C72_rounding",
    "C72_same_frequency_required",
    "C72_different_frequencies_refused",
    "C72_reference_sensor_refuted"
   ],
   "note": "reals instead of floats; 1 ppm precision refuted (8, 16 and 44.1 kHz); the check of equal frequencies takes the reference sensor for a node (refuted)"
  },
  {
   "property": "C73",
   "status": "proved",
   "theorems": [
    "C73_ideal_exchange",
    "C73_topology_independent",
    "C73_completes",
    "C73_few_samples_refuted",
    "C73_relaxed_fusion_refuted",
    "C73_first_node_coefficient",
    "C73_first_node_undefined_refuted",
    "C73_fused_signal",
    "C73_filter_renewal",
    "C73_estimated_filter",
    "C73_first_second",
    "C73_outputs"
   ],
   "note": "refinement of an ideal exchange, topology independence, completion; fused signals, filters and outputs of single events; few samples, relaxed external filters and the first-node normalisation refuted; no SRO compensation, no centralised/SSBC estimates, reals instead of floats"
  },
  {
   "property": "C74",
   "status": "proved",
   "theorems": [
    "C74_schedule",
    "C74_topology_independent",
    "C74_completes"
   ],
   "note": "schedule, topology independence and completion from scheduler to outputs; common clock, exchanges of one hop; no SRO compensation, reals instead of floats"
  },
  {
   "property": "C75",
   "status": "proved",
   "theorems": [
    "C75_spanning_tree",
    "C75_minimum",
    "C75_colocated_refuted",
    "C75_same_place",
    "C75_without_positions_refuted",
    "C75_network_independent",
    "C75_completes"
   ],
   "note": "networkx's minimum spanning tree (Prim, default of the toolbox) is modelled from its documented algorithm, not verified itself; reals instead of floats. Linked nodes at the same place and nodes without positions are refuted."
  },
  {
   "property": "C76",
   "status": "proved",
   "theorems": [
    "C76_end_first",
    "C76_beginning_second",
    "C76_beginning_first",
    "C76_window",
    "C76_one_utterance_refuted"
   ],
   "note": "Rationals instead of floats for times (int() of a product of floats can be one sample off). Signals with a single utterance are refuted."
  },
  {
   "property": "C77",
   "status": "proved",
   "theorems": [
    "C77_snr_value",
    "C77_values",
    "C77_best",
    "C77_gains",
    "C77_differences",
    "C77_improvement",
    "C77_no_processing",
    "C77_window_only",
    "C77_fwsnrseg_range",
    "C77_other_differences_refuted",
    "C77_gamma_refuted",
    "C77_bands_refuted",
    "C77_dynamic_snr_refuted",
    "C77_pesq_ssbc_refuted",
    "C77_without_vad_refuted"
   ],
   "note": "Reals with infinities and nan instead of floats; band-pass filters, spectra, STOI and PESQ are arbitrary functions. Six defects of the code are refuted."
  },
  {
   "property": "C78",
   "status": "proved",
   "theorems": [
    "C78_root_exists",
    "C78_largest_measure",
    "C78_worst_snr_refuted"
   ],
   "note": "Reference sensor 0, as by default; reals instead of floats. That the root has the best signal-to-noise ratio is refuted."
  },
  {
   "property": "C79",
   "status": "proved",
   "theorems": [
    "C79_linear",
    "C79_spacing_refuted",
    "C79_radius",
    "C79_radius_apart",
    "C79_grid",
    "C79_rotation",
    "C79_random",
    "C79_centre",
    "C79_walls_refuted"
   ],
   "note": "Reals instead of floats; draws and scipy's rotations are parameters. The spacing of linear arrays and the distance of sensors to the walls are refuted."
  },
  {
   "property": "C80",
   "status": "proved",
   "theorems": [
    "C80_points",
    "C80_first_inside",
    "C80_points_refuted",
    "C80_accepted",
    "C80_perpendicular",
    "C80_inter_node",
    "C80_inter_node_refuted",
    "C80_offset_refuted",
    "C80_numbers_refuted",
    "C80_one_source_refuted",
    "C80_three_sources_refuted",
    "C80_vertical_refuted"
   ],
   "note": "Reals instead of floats; draws and numbers of attempts are parameters; nan after a division by zero in the rotation is an error in the model. Seven defects of the code are refuted."
  },
  {
   "property": "C81",
   "status": "proved",
   "theorems": [
    "C81_regular_pauses",
    "C81_regular_in_samples",
    "C81_random_pauses",
    "C81_no_pauses",
    "C81_other_distribution",
    "C81_impulse_responses",
    "C81_immediate",
    "C81_immediate_too_short"
   ],
   "note": "Reals instead of floats; the draws are parameters."
  },
  {
   "property": "C82",
   "status": "proved",
   "theorems": [
    "C82_responses",
    "C82_no_noise_sources_refuted",
    "C82_wet_signals",
    "C82_activity",
    "C82_combined_activity",
    "C82_several_targets_refuted",
    "C82_mic_snr",
    "C82_mic_snr_several_refuted",
    "C82_mic_snr_several",
    "C82_normalised_power",
    "C82_dry_snr"
   ],
   "note": "Reals instead of floats; the simulated room responses are parameters. Scenes with several desired sources and the total SNR with several noise sources are refuted."
  },
  {
   "property": "C83",
   "status": "proved",
   "theorems": [
    "C83_per_node_values",
    "C83_accepted",
    "C83_room_size",
    "C83_forgetting_factor",
    "C83_forced_factor",
    "C83_replaced",
    "C83_first_sensor_refuted",
    "C83_added",
    "C83_added_without_offsets_refuted",
    "C83_added_mixture_refuted",
    "C83_prepared_twice_refuted"
   ],
   "note": "Reals and rationals instead of floats; drawn signals are parameters. Four defects of the code are refuted."
  },
  {
   "property": "C84",
   "status": "proved",
   "theorems": [
    "C84_resampled_name",
    "C84_selected",
    "C84_any_candidate",
    "C84_no_noise_lost",
    "C84_no_duplicates",
    "C84_duplicates_refuted",
    "C84_option"
   ],
   "note": "The folder is a list of names; draws are parameters. Choosing a file together with its resampled version is refuted in general."
  },
  {
   "property": "C85",
   "status": "proved",
   "theorems": [
    "C85_identity",
    "C85_random_hermitian",
    "C85_random_range",
    "C85_same_everywhere",
    "C85_unknown_type",
    "C85_sizes",
    "C85_single_node_refuted",
    "C85_valid_runs",
    "C85_start_forgotten",
    "C85_half_life",
    "C85_hermitian_iff_at_start",
    "C85_default_refuted",
    "C85_first_frame"
   ],
   "note": "Exact arithmetic; draws are parameters. Hermitian matrices with random initial values are refuted."
  },
  {
   "property": "C86",
   "status": "proved",
   "theorems": [
    "C86_stacking",
    "C86_reference_refuted",
    "C86_centralised_channel"
   ],
   "note": "The time-domain part of the construction. That the channel is the reference sensor is refuted."
  },
  {
   "property": "C87",
   "status": "proved",
   "theorems": [
    "C87_consistent",
    "C87_unchanged",
    "C87_exports",
    "C87_question",
    "C87_refused_answer",
    "C87_accepted_iff",
    "C87_loaded_again",
    "C87_start_seconds",
    "C87_start_unit",
    "C87_simultaneous_refuted",
    "C87_batch_offsets_refuted",
    "C87_batch_question",
    "C87_fully_connected_refuted",
    "C87_loaded_hop_zero_refuted"
   ],
   "note": "The checks of the network parameters are left out; conversion of strings to numbers is a parameter. Three gaps of the checks are refuted claims."
  },
  {
   "property": "C88",
   "status": "proved",
   "theorems": [
    "C88_frames",
    "C88_best_total",
    "C88_superposition",
    "C88_transparent",
    "C88_batch_same",
    "C88_full_frame_refuted",
    "C88_two_frames_refuted",
    "C88_activity",
    "C88_no_overlap_refuted",
    "C88_cost",
    "C88_cost_ends_refuted"
   ],
   "note": "scipy's stft and istft are modelled after their documentation; exact arithmetic; even frame lengths. Batch runs over signals ending with a complete frame are refuted."
  },
  {
   "property": "C89",
   "status": "proved",
   "theorems": [
    "C89_defined",
    "C89_waits",
    "C89_range",
    "C89_silence_refuted",
    "C89_silence_saturates_refuted",
    "C89_gains",
    "C89_weighted",
    "C89_single_peak",
    "C89_synchronous"
   ],
   "note": "Real numbers instead of floats; scipy's resample is modelled after its documentation, the Kaiser window is an arbitrary (positive) sequence. The estimate for silence is refuted."
  },
  {
   "property": "C90",
   "status": "proved",
   "theorems": [
    "C90_range",
    "C90_delay",
    "C90_whole_samples",
    "C90_attenuated_refuted",
    "C90_half_sample_refuted"
   ],
   "note": "Delay and shift theorems concern the correlation stage; the half-sample refutation concerns complete runs. Fractional shifts are refuted."
  },
  {
   "property": "C91",
   "status": "proved",
   "theorems": [
    "C91_runs_complete",
    "C91_own",
    "C91_as_neighbours",
    "C91_open_loop",
    "C91_closed_loop_refuted",
    "C91_sensors"
   ],
   "note": "The equality with the distributed estimates assumes the open loop, or no flags, or equal sensor numbers (the flags of a closed loop go to wrong sensors otherwise, C51). The closed loop is refuted as in C71."
  },
  {
   "property": "C92",
   "status": "proved",
   "theorems": [
    "C92_accepted_iff",
    "C92_as_laid_out",
    "C92_room_refuted",
    "C92_dimensions_never_rejected_refuted",
    "C92_missing_positions_refuted",
    "C92_random_network_refuted"
   ],
   "note": "Checks made by pyroomacoustics itself when sources are added are not modelled. The comparison of room dimensions, missing positions and random networks are refuted."
  },
  {
   "property": "C93",
   "status": "proved",
   "theorems": [
    "C93_round_trip",
    "C93_into_itself",
    "C93_array_in_list_field_refuted",
    "C93_bracketed_string_refuted"
   ],
   "note": "That PyYAML reads back what it writes is taken for granted; numpy scalars, tuples and mapping-valued fields are excluded. The __post_init__ hooks run after loading are not part of this model. Arrays in list fields and bracketed strings are refuted."
  },
  {
   "property": "C94",
   "status": "proved",
   "theorems": [
    "C94_kept_filters",
    "C94_networkwide_output",
    "C94_complete",
    "C94_parts_add_up_refuted",
    "C94_stationary_noise_vanishes"
   ],
   "note": "Multichannel Wiener filters (no GEVD), STFT domain; with the run's own filters the sum is proved, for the code as it stands it is refuted."
  },
  {
   "property": "C95",
   "status": "proved",
   "theorems": [
    "C95_recorded",
    "C95_not_saved",
    "C95_number"
   ],
   "note": "The condition number of a matrix is an arbitrary function; figures are not modelled."
  },
  {
   "property": "C96",
   "status": "proved",
   "theorems": [
    "C96_error_weights",
    "C96_error_bounds",
    "C96_error_forgets",
    "C96_settling_time",
    "C96_frame_length_refuted",
    "C96_ratio_computed",
    "C96_good_estimates_refuted",
    "C96_residual_offset"
   ],
   "note": "One node; real numbers; the ratio itself and the SNR trajectories are not modelled, only whether the ratio is computed. Frame length and good estimates: refuted as the code stands."
  },
  {
   "property": "C97",
   "status": "proved",
   "theorems": [
    "C97_total_simple",
    "C97_total_imc",
    "C97_resampled_simple",
    "C97_resampled_imc",
    "C97_parts_simple",
    "C97_parts_imc",
    "C97_waits_simple",
    "C97_waits_imc",
    "C97_inactive_simple",
    "C97_inactive_imc",
    "C97_silence_refuted"
   ],
   "note": "Real numbers; composed of the models of C43, C44/C59, C60 and C89. Convergence of the estimates is not claimed; silence is refuted as the code stands."
  },
  {
   "property": "C98",
   "status": "proved",
   "theorems": [
    "C98_vad_defined",
    "C98_vad_gain",
    "C98_vad_longer",
    "C98_vad_extremes",
    "C98_vad_decibels_refuted",
    "C98_vad_short_refuted",
    "C98_tracker_range",
    "C98_trajectory",
    "C98_constant_power",
    "C98_smoothed_inside",
    "C98_smoothed_edges_refuted"
   ],
   "note": "Real numbers, boolean VAD; the factor, short VADs and the edges of the smoothed trajectory are refuted as the code stands."
  }
 ]
}