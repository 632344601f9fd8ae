{
 "claims": [
  {
   "property": "C01",
   "status": "proved",
   "theorems": [
    "C01_first_segment_is_smallest_owned",
    "C01_segment_ownership"
   ],
   "note": "Ownership of segments and first owned segment, for every rate >= cluster size >= 1."
  },
  {
   "property": "C02",
   "status": "partial",
   "theorems": [
    "C02_owner_lookup_aborts",
    "C02_owner_lookup_refuted"
   ],
   "note": "REFUTED as stated: C02_owner_lookup_refuted is a witness, C02_owner_lookup_aborts shows that every configuration with more nodes than segments aborts; the guarded positive statement is C01."
  },
  {
   "property": "C03",
   "status": "proved",
   "theorems": [
    "C03_cyclic_node_distance",
    "C03_iterator",
    "C03_next_previous_inverse",
    "C03_own_index_and_neighbours",
    "C03_ring_covers_cluster",
    "C03_single_host_has_no_neighbour"
   ],
   "note": ""
  },
  {
   "property": "C04",
   "status": "proved",
   "theorems": [
    "C04_cluster_agreement",
    "C04_runs_exist"
   ],
   "note": ""
  },
  {
   "property": "C05",
   "status": "partial",
   "theorems": [
    "C05_start_at_most_once_refuted",
    "C05_starts_exactly",
    "C05_sub_starts_exactly"
   ],
   "note": "REFUTED as stated: witness C05_start_at_most_once_refuted. C05_starts_exactly and C05_sub_starts_exactly give the number of starts of the main host and of every other host for every sequence of announcements, lists and departures; runs without repeated notifications are C04."
  },
  {
   "property": "C06",
   "status": "proved",
   "theorems": [
    "C06_rows_reach_their_nodes"
   ],
   "note": ""
  },
  {
   "property": "C07",
   "status": "partial",
   "theorems": [
    "C07_aborts_exactly",
    "C07_every_remainder_refuted",
    "C07_large_remainder_aborts"
   ],
   "note": "REFUTED as stated: C07_large_remainder_aborts shows that the reader aborts for every remainder larger than the overlap; C07_aborts_exactly gives the exact condition; C06 is the positive case."
  },
  {
   "property": "C08",
   "status": "partial",
   "theorems": [
    "C08_long_pattern_refuted",
    "C08_right_exactly",
    "C08_what_is_sent"
   ],
   "note": "REFUTED as stated: witness. C08_what_is_sent describes what the reader sends for every number of rows, receivers and every pattern length; C08_right_exactly gives the exact condition under which every receiver gets its partition."
  },
  {
   "property": "C09",
   "status": "proved",
   "theorems": [
    "C09_bad_range_fails",
    "C09_column_selection"
   ],
   "note": ""
  },
  {
   "property": "C10",
   "status": "proved",
   "theorems": [
    "C10_global_minmax",
    "C10_no_numbers",
    "C10_single_precision"
   ],
   "note": "C10_global_minmax over the reals; C10_single_precision for f32 with infinities and values that are not numbers, which are ignored; C10_no_numbers: a column without numbers gets the largest value as minimum and the lowest as maximum."
  },
  {
   "property": "C100",
   "status": "partial",
   "theorems": [
    "C100_every_run_accurate",
    "C100_hosts_orders",
    "C100_hosts_repeated_run_refuted",
    "C100_hosts_same_factor",
    "C100_orders",
    "C100_repeated_run_refuted",
    "C100_runs_agree_approximately_partial",
    "C100_same_factor",
    "C100_two_threads"
   ],
   "note": "REFUTED as stated: C100_repeated_run_refuted: from three threads on, the means of the threads are added in single precision in the order their messages arrive, so for every number of threads from 3 to 2^24 there is a column whose mean is 0 in one run and 1/n in another. C100_orders: exactly which orders occur (the main thread's first, the others in any order); C100_same_factor: the factors are merged by the same tree in every run; C100_two_threads: with at most two threads all runs agree; C100_runs_agree_approximately_partial: the means of two runs differ at most by the rounding errors of the summation over the threads; C100_hosts_orders, C100_hosts_same_factor and C100_hosts_repeated_run_refuted say the same of hosts with one thread each: every order of the other hosts occurs, the tree is always the same, and from three hosts on the means depend on the order; C100_every_run_accurate: and each is the mean of the column up to rounding errors. The windows are modelled as kept row by row, where the library adds the rows one after the other."
  },
  {
   "property": "C101",
   "status": "partial",
   "theorems": [
    "C101_close_partial",
    "C101_hosts_refuted",
    "C101_threads_refuted"
   ],
   "note": "REFUTED as stated: C101_hosts_refuted: for every number n of hosts from two on (with 2n at most 2^24) there is a column, two rows per host, whose mean is 0 on one machine with one thread and the rounded 1/(2n) on n hosts, whatever the order of their messages; C101_threads_refuted: from three threads on there is a column whose mean on one machine is 0 with one thread and positive with that many. C101_close_partial: on any number of hosts that all have rows, with any numbers of threads, in every order, the column is centred by its mean up to an explicit rounding error that depends on the numbers of hosts, threads and rows per thread. Hosts without rows and means lost on the way are left to C18."
  },
  {
   "property": "C102",
   "status": "partial",
   "theorems": [
    "C102_points_refuted",
    "C102_scores_refuted"
   ],
   "note": "REFUTED as stated: C102_scores_refuted: a series of seven measurements (one swing: -1,-1,1,1,-1,-1,0) with three distinct principal values, for which one correct decomposition leads to the scores 1, 0, 0 and another correct decomposition of the same matrix to three NaN, in every complete execution; C102_points_refuted: the points go round counter-clockwise with one and clockwise with the other, and clockwise steps are not followed. The cause: the sign rule of normalize looks at the first entry of a component only. Here the second component vanishes at the first delay. Proved: the scores are the same for any two libraries if the components are determined (C89_libraries), and the components are determined exactly if the three largest principal values are distinct from each other and the rest and no component starts with 0 (C84_determined_exactly). Over the reals up to the labels, scores in single precision."
  },
  {
   "property": "C103",
   "status": "partial",
   "theorems": [
    "C103_cluster_finishes_refuted",
    "C103_correcting_never_finishes",
    "C103_correcting_no_host_goes_on",
    "C103_no_host_goes_on",
    "C103_resting_part_never_finishes"
   ],
   "note": "REFUTED as stated: C103_cluster_finishes_refuted: fifteen measurements with determined components; one machine delivers one entry per window in every complete execution, a cluster of three hosts, the second of which gets measurements that are all -1, never finishes. In general (C103_no_host_goes_on, C103_resting_part_never_finishes), for every series, setting and number of hosts: if the measurements of a host other than the first are all equal, its points lie in one segment, it has no usable transition and sends no first point; the host before it waits forever, whatever the order of events, and no host gets through the exchange of transitions. What holds instead: C88, if every part has a usable transition. The same with self-correction, whether the hosts mirror their points or not and however first points and counts overtake each other: C103_correcting_no_host_goes_on, C103_correcting_never_finishes. Over the reals."
  },
  {
   "property": "C104",
   "status": "partial",
   "theorems": [
    "C104_cluster_waits_refuted",
    "C104_correcting_cluster_waits_refuted",
    "C104_one_machine_refuted",
    "C104_only_its_windows_refuted",
    "C104_windows_partial"
   ],
   "note": "REFUTED as stated: C104_only_its_windows_refuted: if a value of any row but the last is missing, both coordinates that its channel contributes to a point are NaN, for every point on every host, because the means of all windows are subtracted from every window (rotation/mod.rs:69-129) and one of them is NaN. If the value is missing in one of the first two columns, every point gets segment 0; a cluster then never gets through the exchange of transitions (C104_cluster_waits_refuted; with self-correction C104_correcting_cluster_waits_refuted), and one machine delivers NaN for every window (C104_one_machine_refuted). What holds is C104_windows_partial: before centring, only windows that contain the row are affected. In single precision; sums and products in any order, grouping or fusion, components and rotation arbitrary. Not modelled: what the numerical library does with such data; if it reports an error, the analysis aborts earlier."
  },
  {
   "property": "C105",
   "status": "partial",
   "theorems": [
    "C105_cluster_refuted",
    "C105_correcting_cluster_refuted",
    "C105_every_other_row_partial",
    "C105_no_window_has_it_refuted",
    "C105_one_machine_refuted"
   ],
   "note": "REFUTED as stated: C105_no_window_has_it_refuted: no window contains the last row, because a window covers pattern_length - 1 rows only (phase_spacer/mod.rs:17-65) while their number counts windows of pattern_length rows. So two series that differ only in the last row and have the same extremes have the same outcomes, on one machine (C105_one_machine_refuted) and on a cluster (C105_cluster_refuted, C105_correcting_cluster_refuted): an anomaly in the last measurement is never found. What holds: every other row belongs to a window, and changing one of its values changes the windows (C105_every_other_row_partial)."
  },
  {
   "property": "C106",
   "status": "partial",
   "theorems": [
    "C106_exchanged_columns_refuted",
    "C106_two_columns_decide_refuted"
   ],
   "note": "REFUTED as stated: with two or more channels the coordinates of a point are first all first and then all second coordinates of the channels (rotation/mod.rs:205-229), while its segment is computed from the first two (point.rs:33-35), so from the first two columns only. C106_two_columns_decide_refuted: two series that agree in the first two columns have the same points in the same segments and the same steps, whatever the other columns contain. C106_exchanged_columns_refuted: exchanging two columns turns the direction of travel round: a series gets numbers, and with its columns exchanged no number at all, in every complete execution. What holds is the other reading of the first theorem: exchanging columns after the second leaves points, segments and steps as they are. Over the reals."
  },
  {
   "property": "C107",
   "status": "partial",
   "theorems": [
    "C107_cluster_waits_refuted",
    "C107_correcting_cluster_waits_refuted",
    "C107_kept_apart_partial",
    "C107_one_machine_refuted",
    "C107_other_channels_refuted"
   ],
   "note": "refuted, in single precision: if a channel shows the same whole number in every row (zero, for instance), its means, extremes and reference point are computed exactly, whatever the numbers of hosts and threads and the order of their messages; the reduced reference is zero, get_rotation_matrix divides zero by zero, and every entry of the matrix of the channel is NaN. Both coordinates of the channel are NaN for every point. If it is one of the first two channels, every point has segment 0, so that a cluster never gets through the exchange of transitions (with self-correction C107_correcting_cluster_waits_refuted) and one machine delivers only NaN. (The background oscillation of the preprocessor would prevent this, but it is written to a copy and dropped, C14.) What holds (partial): windows, extremes and reference of a channel depend on that channel only. Constants whose sums are rounded are not covered, nor what follows when only later channels are constant."
  },
  {
   "property": "C108",
   "status": "partial",
   "theorems": [
    "C108_cluster_waits_refuted",
    "C108_correcting_cluster_waits_refuted",
    "C108_finite_series_refuted",
    "C108_one_machine_refuted",
    "C108_reference_partial"
   ],
   "note": "REFUTED as stated: the reference data set takes steps of (maximum - minimum) / 99 (Array::linspace); if two finite values of a channel differ by 2^128 or more, the difference is infinite, infinity times the index 0 is NaN, and with the reference every entry of the matrix and both coordinates of the channel are NaN for all points (C108_finite_series_refuted). If it is one of the first two channels, a cluster waits forever and one machine delivers only NaN (C108_cluster_waits_refuted, with self-correction C108_correcting_cluster_waits_refuted, C108_one_machine_refuted). What holds (C108_reference_partial): as long as the difference is a finite single precision number, the reference starts exactly with the minimum. Overflow in later sums and products is not covered."
  },
  {
   "property": "C109",
   "status": "partial",
   "theorems": [
    "C109_by_length_refuted",
    "C109_embeds_exactly_if",
    "C109_latent_zero_refuted",
    "C109_narrow_window_refuted",
    "C109_window_partial"
   ],
   "note": "Finding: the lengths are not checked against each other. A pattern shorter than latent + 3 is embedded and then aborts when three components are taken (slice out of range). With latent 0 every window is a row of zeros: all series of one length are analysed alike, the measurements have no influence. With n points, query length q and t threads: n < q is refused with a reason, n = q ends in an abort on an empty score list, q < n < q + t has orders of the answers that end without a result, and only q + t <= n always delivers one score per window. Proved: exactly when the embedding exists, the components for latent + 3 <= pattern length, and the four cases for every series whose stages before the scores succeed (as in C81)."
  },
  {
   "property": "C11",
   "status": "proved",
   "theorems": [
    "C11_published_length"
   ],
   "note": ""
  },
  {
   "property": "C110",
   "status": "partial",
   "theorems": [
    "C110_crossings_refuted",
    "C110_goes_on_partial",
    "C110_no_helper_refuted",
    "C110_opposite_points_refuted",
    "C110_release",
    "C110_waits_forever_refuted"
   ],
   "note": "Proved for release builds (Cargo.toml makes a panic end the process): every execution with a failing task comes to rest with the process ended. REFUTED for all other builds (tests, cargo run, the crate as a library): the thread dies, the task is lost, and the requester waits for ever, neither going on nor aborting; one pair of opposite points is enough for the crossings of a host. C110_goes_on_partial: without failing tasks it goes on once, with all answers. Assumes that a panic in a helper thread only ends that thread (actix)."
  },
  {
   "property": "C111",
   "status": "partial",
   "theorems": [
    "C111_assembled",
    "C111_columns",
    "C111_no_rows_refuted",
    "C111_overlap",
    "C111_pattern_zero_refuted",
    "C111_reader",
    "C111_reference",
    "C111_scoring",
    "C111_statistics_partial",
    "C111_statistics_refuted",
    "C111_summands",
    "C111_time_index",
    "C111_windows"
   ],
   "note": "Same result, or both abort, for every word size large enough for the data: windows of every series with a row, reference data set, time index, scoring windows, overlap between hosts, summands of the scores (one machine), assembly of the scores, choice of columns, partitions (pattern length at least 1), statistics of a host that has the rows of the overlap. REFUTED: with pattern length 0 a cluster of release builds sends the whole series to the first host and nothing to the others (C111_pattern_zero_refuted); a host with fewer rows than the overlap reports the statistics of some of its first rows, as ndarray reads the wrapped end as one counted from the back (C111_statistics_refuted; building the windows aborts later, C111_windows); without rows and with both lengths 0 it goes on with one empty window (C111_no_rows_refuted)."
  },
  {
   "property": "C112",
   "status": "partial",
   "theorems": [
    "C112_cluster_waits_refuted",
    "C112_correcting_cluster_waits_refuted",
    "C112_infinite_value_refuted",
    "C112_one_machine_refuted"
   ],
   "note": "REFUTED as stated: f32::from_str reads inf as a value; it becomes an extreme of its channel, so the step of the reference data set is infinite or NaN and its first row is NaN: both coordinates of the channel are NaN for every point of every host, wherever the value stands, even in the last row, which belongs to no window (C112_infinite_value_refuted). If it is one of the first two channels, a cluster waits forever and one machine delivers only NaN (C112_cluster_waits_refuted, with self-correction C112_correcting_cluster_waits_refuted, C112_one_machine_refuted). Not modelled: what the numerical library does with such data; if it reports an error, the analysis aborts earlier."
  },
  {
   "property": "C12",
   "status": "partial",
   "theorems": [
    "C12_cluster_correct_exactly",
    "C12_cluster_never_too_large",
    "C12_cluster_published",
    "C12_equal_means",
    "C12_node_message",
    "C12_single_node",
    "C12_two_node_error",
    "C12_two_nodes_refuted"
   ],
   "note": "REFUTED as stated for two or more nodes: C12_two_nodes_refuted. Proved: one node (C12_single_node), nodes with equal means (C12_equal_means), and for any number of nodes and any order of arrival exactly what is published (C12_cluster_published; C12_two_node_error for two): with two rows per node never too large, with three rows per node right exactly if all nodes have the same mean (C12_cluster_never_too_large, C12_cluster_correct_exactly)."
  },
  {
   "property": "C13",
   "status": "proved",
   "theorems": [
    "C13_every_column_once",
    "C13_no_columns_hang",
    "C13_no_threads_hang",
    "C13_progress"
   ],
   "note": "For at least one thread and one column; without either the stage never finishes (C13_no_threads_hang, C13_no_columns_hang)."
  },
  {
   "property": "C14",
   "status": "proved",
   "theorems": [
    "C14_preprocessing_is_identity"
   ],
   "note": ""
  },
  {
   "property": "C15",
   "status": "proved",
   "theorems": [
    "C15_embedding"
   ],
   "note": ""
  },
  {
   "property": "C16",
   "status": "proved",
   "theorems": [
    "C16_distributed_embedding",
    "C16_point_ids"
   ],
   "note": ""
  },
  {
   "property": "C17",
   "status": "proved",
   "theorems": [
    "C17_helper_threads_merge_every_factor_once",
    "C17_helper_threads_terminate",
    "C17_hosts_merge_every_factor_once",
    "C17_hosts_terminate"
   ],
   "note": "Hosts: any number, any number of threads, with or without FIFO, one channel, hypothesis: no host receives a factor before it begins its own PCA (C19 shows that it is needed). Helper threads: no hypothesis. Termination is proved as absence of infinite runs plus the state of every run that cannot go on."
  },
  {
   "property": "C18",
   "status": "partial",
   "theorems": [
    "C18_four_hosts_refuted",
    "C18_helper_threads_know_all_means",
    "C18_means_ahead_partial",
    "C18_three_hosts_partial",
    "C18_two_hosts_refuted"
   ],
   "note": "REFUTED as stated between hosts (two witnesses: 2 hosts with several threads, 4 hosts with one thread; both FIFO). Proved for the helper threads of one host; between hosts with one thread each if nothing is received before the own PCA begins and no factor overtakes means that belong to it (C18_means_ahead_partial), which FIFO channels guarantee for up to three hosts (C18_three_hosts_partial); with several threads per host if moreover nothing is received while the threads are at work on the own factor (C59_hosts_with_threads_in_step_partial)."
  },
  {
   "property": "C19",
   "status": "partial",
   "theorems": [
    "C19_early_factor_lost_refuted",
    "C19_early_factor_stops_everything_refuted"
   ],
   "note": "REFUTED as stated: 2 hosts, FIFO, for one thread and for several threads. In general (C19_early_factor_stops_everything_refuted): for any numbers of hosts and threads, one early factor is enough that no continuation ever finalizes."
  },
  {
   "property": "C20",
   "status": "proved",
   "theorems": [
    "C20_channels_scatter",
    "C20_channels_with_threads_scatter",
    "C20_helper_threads_scatter",
    "C20_hosts_scatter",
    "C20_hosts_with_threads_scatter"
   ],
   "note": "f32 is R; qr is any function whose result has the same Gram matrix. Proved for helper threads (every run), hosts with one thread and hosts with several threads, for every finalization that knows all means (C18); and for every channel of a run with several channels, on one host and on hosts in step (C20_channels_scatter, C20_channels_with_threads_scatter)."
  },
  {
   "property": "C21",
   "status": "partial",
   "theorems": [
    "C21_chunks_tile_the_rows",
    "C21_completes_exactly_if",
    "C21_completes_partial",
    "C21_every_row_count_refuted"
   ],
   "note": "REFUTED as stated (9 rows, 4 threads: no run ever yields a result). Proved: tiling for all sizes; completion for rows > (threads-1)^2; exact condition."
  },
  {
   "property": "C22",
   "status": "proved",
   "theorems": [
    "C22_alignment_matrix",
    "C22_on_the_axis"
   ],
   "note": "Per channel through the flat (3,3,n) layout; reference point not on the third axis. On the axis the code divides by zero: C22_on_the_axis shows in single precision that every entry of the matrix is NaN then."
  },
  {
   "property": "C23",
   "status": "proved",
   "theorems": [
    "C23_origin_in_first_segment",
    "C23_segment_is_sector"
   ],
   "note": "Exact real angles; f32 rounding near a border is not modelled."
  },
  {
   "property": "C24",
   "status": "proved",
   "theorems": [
    "C24_transition_or_reverse_usable",
    "C24_usable_iff_forward_at_most_half"
   ],
   "note": ""
  },
  {
   "property": "C25",
   "status": "proved",
   "theorems": [
    "C25_crossed_borders"
   ],
   "note": ""
  },
  {
   "property": "C26",
   "status": "proved",
   "theorems": [
    "C26_single_machine_records_usable_pairs",
    "C26_transition_ids"
   ],
   "note": "All point sequences; the ids of recorded transitions follow the numbering of the points."
  },
  {
   "property": "C27",
   "status": "proved",
   "theorems": [
    "C27_distributed_segmentation",
    "C27_union"
   ],
   "note": "All partitions with a usable transition each, all schedules of the hand-over without early first points, all delivery orders of the exchange (composition with C29)."
  },
  {
   "property": "C28",
   "status": "partial",
   "theorems": [
    "C28_completes_partial",
    "C28_early_first_point_aborts_refuted",
    "C28_ends_exactly",
    "C28_no_infinite_run",
    "C28_waits_forever_refuted"
   ],
   "note": "REFUTED as stated (from measurements to the hang: C103): a partition without usable transition blocks its predecessor forever and aborts itself when the first point of the next partition arrives; an early first point aborts the receiver. Proved: completion under the two conditions, how every maximal run without early first points ends on each host (C28_ends_exactly), no infinite run."
  },
  {
   "property": "C29",
   "status": "proved",
   "theorems": [
    "C29_every_bucket_exactly_once",
    "C29_leaves_once_after_everything",
    "C29_never_twice",
    "C29_no_infinite_run"
   ],
   "note": "Generic model of the all-to-all exchange used five times; any delivery order (not only FIFO), any start times; safety at every moment, completeness when nothing is left to do, and no infinite run. wait_send in the answers is not modelled."
  },
  {
   "property": "C30",
   "status": "proved",
   "theorems": [
    "C30_every_contribution_exactly_once",
    "C30_every_contribution_if_not_overtaken",
    "C30_never_twice",
    "C30_no_infinite_run"
   ],
   "note": "Ring exchange with FIFO links and FIFO mailboxes; proved under the stated condition and under the weaker condition that buffered contributions are not overtaken."
  },
  {
   "property": "C31",
   "status": "partial",
   "theorems": [
    "C31_counts_partial",
    "C31_every_ring_refuted",
    "C31_late_start_refuted",
    "C31_two_hosts_partial"
   ],
   "note": "REFUTED as stated: with three hosts and a late starter a host takes in its own contribution and misses another one although every host reports to be finished (C31_late_start_refuted); such a run exists in every ring of three or more hosts (C31_every_ring_refuted). What holds in every run: each host finishes exactly once, with as many contributions as there are other hosts (C31_counts_partial). For two hosts proved (C31_two_hosts_partial)."
  },
  {
   "property": "C32",
   "status": "proved",
   "theorems": [
    "C32_not_before",
    "C32_pool"
   ],
   "note": "Pool of helpers as used by the intersection stage and by the kernel density estimation; every answer order."
  },
  {
   "property": "C33",
   "status": "partial",
   "theorems": [
    "C33_exactly_the_host_changes_partial",
    "C33_extra_question_refuted",
    "C33_questions"
   ],
   "note": "REFUTED as stated for a first transition that starts in the last segment of its owner (one extra question about a crossing that does not exist). Proved: exact characterisation for all sequences; exactly the host changes of the path otherwise."
  },
  {
   "property": "C34",
   "status": "partial",
   "theorems": [
    "C34_border_partial",
    "C34_no_spanning_transition_refuted",
    "C34_nothing_invented",
    "C34_spanning_transition_refuted"
   ],
   "note": "REFUTED as stated in two ways (spanning pair usable / not usable). Proved: every other step of the path is asked for, and exactly when the border step may be lost."
  },
  {
   "property": "C35",
   "status": "proved",
   "theorems": [
    "C35_travel_order"
   ],
   "note": "Travel order for every usable transition with a predecessor, including the wrap-around; stored order only assumed to be a permutation sorted by segment."
  },
  {
   "property": "C36",
   "status": "partial",
   "theorems": [
    "C36_aborts_exactly_if",
    "C36_first_transition_refuted",
    "C36_succeeds_partial"
   ],
   "note": "REFUTED as stated: exactly the first transitions crossing into the last segment and then segment 0 abort on one machine (C36_aborts_exactly_if). On a cluster edge creation always succeeds."
  },
  {
   "property": "C37",
   "status": "proved",
   "theorems": [
    "C37_single_machine_walk"
   ],
   "note": "Edge list = consecutive pairs of the walk, for every storage order within a segment; consecutive edges join."
  },
  {
   "property": "C38",
   "status": "proved",
   "theorems": [
    "C38_edges_reach_their_owner",
    "C38_more_hosts_than_rows_aborts",
    "C38_never_aborts"
   ],
   "note": "All delivery orders. Condition: at least as many rows as hosts (otherwise DivByZero, C38_more_hosts_than_rows_aborts)."
  },
  {
   "property": "C39",
   "status": "partial",
   "theorems": [
    "C39_cluster_weights",
    "C39_every_cluster_refuted",
    "C39_every_edge_has_a_weight",
    "C39_late_exactly",
    "C39_late_start_refuted",
    "C39_weights_are_multiplicities"
   ],
   "note": "Proved on one machine, and on a cluster if no ring message overtakes a late host. REFUTED for a cluster of three with a late host (C39_late_start_refuted): an edge is counted twice and another not at all. In every cluster of three or more hosts there is a run in which the last host counts its own edges twice and those of the first host not at all (C39_every_cluster_refuted), so an edge of the graph has its weight only if both hosts hold it equally often (C39_late_exactly)."
  },
  {
   "property": "C40",
   "status": "partial",
   "theorems": [
    "C40_cluster_degrees",
    "C40_degrees",
    "C40_every_cluster_refuted",
    "C40_source_degree_positive"
   ],
   "note": "Proved on one machine, and on a cluster under the condition of the statement (equal edges on the same machine; C40_same_edge_on_two_hosts shows it is needed) if no ring message overtakes a late host. REFUTED for every cluster of three or more hosts with a late host (C40_every_cluster_refuted): the last host adds its own degrees twice and those of the first host not at all."
  },
  {
   "property": "C41",
   "status": "partial",
   "theorems": [
    "C41_monotone",
    "C41_only_time_zero_refuted",
    "C41_time_index"
   ],
   "note": "Proved for every list whose time stamps are not all 0; REFUTED for the remaining lists (C41_only_time_zero_refuted)."
  },
  {
   "property": "C42",
   "status": "proved",
   "theorems": [
    "C42_no_abort",
    "C42_query_length_zero_aborts",
    "C42_query_too_long_aborts",
    "C42_windows"
   ],
   "note": "Every window, weight and degree access and every subtraction; query lengths 0 or too long abort explicitly."
  },
  {
   "property": "C43",
   "status": "proved",
   "theorems": [
    "C43_independent_of_threads",
    "C43_no_infinite_run"
   ],
   "note": "Exactly one vector is passed on, the sequential one; every run ends. Floating point operations are abstract parameters."
  },
  {
   "property": "C44",
   "status": "partial",
   "theorems": [
    "C44_fewer_windows_than_threads_refuted"
   ],
   "note": "REFUTED as stated: for every graph with fewer windows than threads there is an order of responses after which scoring waits forever."
  },
  {
   "property": "C45",
   "status": "proved",
   "theorems": [
    "C45_length_cluster",
    "C45_length_one_machine"
   ],
   "note": "One machine and cluster."
  },
  {
   "property": "C46",
   "status": "proved",
   "theorems": [
    "C46_constant_is_nan_refuted",
    "C46_empty_aborts",
    "C46_equal_scores_are_nan_refuted",
    "C46_no_overflow",
    "C46_normalized",
    "C46_one_machine"
   ],
   "note": "For all finite vectors that are not constant and whose range does not overflow; C46_one_machine connects it to the raw scores of a single machine (no overflow possible up to 2^24 edges). Finding: a constant vector gives NaN everywhere (C46_constant_is_nan_refuted), an empty one aborts."
  },
  {
   "property": "C47",
   "status": "proved",
   "theorems": [
    "C47_empty_aborts",
    "C47_order_1",
    "C47_peaks"
   ],
   "note": "For every vector, every strict order and every peak order; the engine's instance (single precision, order 1) separately."
  },
  {
   "property": "C48",
   "status": "proved",
   "theorems": [
    "C48_nan_aborts",
    "C48_nearest",
    "C48_nearest_exact",
    "C48_really_nearest_refuted"
   ],
   "note": "In single precision the rounded distance is minimised (first of equals); a really nearer centre can lose by rounding (C48_really_nearest_refuted). Exact version over the reals."
  },
  {
   "property": "C49",
   "status": "proved",
   "theorems": [
    "C49_labels",
    "C49_not_hashable_aborts",
    "C49_one_label_per_row"
   ],
   "note": "Single precision entries with the engine's hash conversion; entries that cannot be converted abort (C49_not_hashable_aborts)."
  },
  {
   "property": "C50",
   "status": "proved",
   "theorems": [
    "C50_any_schedule",
    "C50_no_threads_aborts",
    "C50_ranges",
    "C50_sum"
   ],
   "note": "Exact arithmetic: any commutative monoid, all thread counts, all arrival orders; the actors with arbitrary delivery order, including the number of deliveries."
  },
  {
   "property": "C51",
   "status": "proved",
   "theorems": [
    "C51_intersection_on_line_and_border"
   ],
   "note": "For every correct matrix inversion; border plane in any even dimension."
  },
  {
   "property": "C52",
   "status": "proved",
   "theorems": [
    "C52_every_run_ends",
    "C52_overlap"
   ],
   "note": "All moments of readiness and delivery orders."
  },
  {
   "property": "C53",
   "status": "partial",
   "theorems": [
    "C53_cluster_decides_differently_refuted",
    "C53_cluster_report_partial",
    "C53_single_machine_decision_partial"
   ],
   "note": "REFUTED as stated: usable pairs that stay at their host are reported twice. Proved: the decision on one machine, and the exact number every host reports."
  },
  {
   "property": "C54",
   "status": "proved",
   "theorems": [
    "C54_distance_reversed",
    "C54_mirror_reverses",
    "C54_mirror_twice"
   ],
   "note": ""
  },
  {
   "property": "C55",
   "status": "partial",
   "theorems": [
    "C55_kde_partial",
    "C55_meanshift_refuted"
   ],
   "note": "REFUTED as stated: the wrapper offers 'meanshift', and every analysis with it aborts, whatever the other arguments; 'kde' is accepted."
  },
  {
   "property": "C56",
   "status": "partial",
   "theorems": [
    "C56_members_that_left_are_counted",
    "C56_start_with_connected_members_refuted"
   ],
   "note": "REFUTED as stated: witness. C56_members_that_left_are_counted: for every history of announcements and departures each start hands over exactly the hosts announced so far, those that left included."
  },
  {
   "property": "C57",
   "status": "proved",
   "theorems": [
    "C57_reference_dataset"
   ],
   "note": ""
  },
  {
   "property": "C58",
   "status": "proved",
   "theorems": [
    "C58_partition_processed_once"
   ],
   "note": "Control flow only; the numerical work is C06, C10-C14."
  },
  {
   "property": "C59",
   "status": "partial",
   "theorems": [
    "C59_hosts_in_step_partial",
    "C59_hosts_with_threads_in_step_partial",
    "C59_one_host_partial",
    "C59_second_channel_refuted"
   ],
   "note": "REFUTED as stated: 2 hosts, 2 channels, one thread, FIFO. Proved for one host with any number of channels and threads, and for any number of hosts with one thread each as long as no host handles a factor or means of a channel it has not begun and no factor overtakes its means; with several threads each if moreover no host receives either while its threads are at work (C59_hosts_with_threads_in_step_partial)."
  },
  {
   "property": "C60",
   "status": "proved",
   "theorems": [
    "C60_component_sign"
   ],
   "note": ""
  },
  {
   "property": "C61",
   "status": "proved",
   "theorems": [
    "C61_one_channel",
    "C61_points_numbered",
    "C61_several_channels"
   ],
   "note": ""
  },
  {
   "property": "C62",
   "status": "proved",
   "theorems": [
    "C62_matrix_applied_once",
    "C62_matrix_terminates"
   ],
   "note": ""
  },
  {
   "property": "C63",
   "status": "partial",
   "theorems": [
    "C63_crossing_between_points_partial",
    "C63_half_turn_refuted",
    "C63_proper_crossing_exactly",
    "C63_stored_distance_partial"
   ],
   "note": "REFUTED as stated: a transition by exactly half of the segments can be intersected on the opposite side of the origin; proved for less than half, and for every usable transition an exact condition (C63_proper_crossing_exactly: the turn seen from the origin is less than half a turn)."
  },
  {
   "property": "C64",
   "status": "partial",
   "theorems": [
    "C64_aborts_exactly",
    "C64_intersection_exists_partial",
    "C64_opposite_points_refuted"
   ],
   "note": "REFUTED as stated: opposite points make the matrix singular; proved for less than half a turn, and for every usable transition an exact condition (C64_aborts_exactly: the second point on the border, the first on the opposite ray)."
  },
  {
   "property": "C65",
   "status": "proved",
   "theorems": [
    "C65_announced_once"
   ],
   "note": "Counters of both rings on one host, every interleaving."
  },
  {
   "property": "C66",
   "status": "proved",
   "theorems": [
    "C66_edges_of_a_host",
    "C66_union"
   ],
   "note": "Every host; union is the whole walk. answers_complete is the specification of the answers (see C67 for where it comes from)."
  },
  {
   "property": "C67",
   "status": "partial",
   "theorems": [
    "C67_answers_complete",
    "C67_graph_of_a_cluster_partial",
    "C67_lost_border_step_refuted",
    "C67_questions_cover_partial"
   ],
   "note": "REFUTED as stated: a lost question at the border between two partitions (see C34) makes the cluster lose a step and invent another (C67_lost_border_step_refuted). Proved for all delivery orders: if no border step is lost, questions are complete, answers are complete and the cluster holds exactly the walk (C67_graph_of_a_cluster_partial)."
  },
  {
   "property": "C68",
   "status": "proved",
   "theorems": [
    "C68_failed_clustering_aborts",
    "C68_one_node_per_crossing"
   ],
   "note": "For every clustering function that returns one label per row; the hosts' crossings are given in any order."
  },
  {
   "property": "C69",
   "status": "partial",
   "theorems": [
    "C69_constant_aborts_refuted",
    "C69_two_equal_abort_refuted"
   ],
   "note": "REFUTED as stated: for every finite coordinate x two crossings sharing it abort the clustering, and so does every constant column with exact sums."
  },
  {
   "property": "C70",
   "status": "partial",
   "theorems": [
    "C70_arrival_order_refuted",
    "C70_assembled",
    "C70_border_window_refuted",
    "C70_every_cluster_refuted",
    "C70_first_window_empty_aborts_refuted",
    "C70_host_vector",
    "C70_late_start_refuted",
    "C70_same_as_one_machine_partial"
   ],
   "note": "REFUTED as stated in four ways, by a late host in every cluster of three or more (C70_every_cluster_refuted). Proved: every host assembles the same vector, the windows of all hosts in order (C70_assembled); it is the single-machine vector if there is an edge just behind every partition border (C70_same_as_one_machine_partial)."
  },
  {
   "property": "C71",
   "status": "proved",
   "theorems": [
    "C71_window_content"
   ],
   "note": "Also for cluster windows, see C70."
  },
  {
   "property": "C72",
   "status": "proved",
   "theorems": [
    "C72_negated_average",
    "C72_not_positive"
   ],
   "note": "Sum and division in IEEE single precision."
  },
  {
   "property": "C73",
   "status": "partial",
   "theorems": [
    "C73_three_threads_refuted",
    "C73_two_threads"
   ],
   "note": "REFUTED as stated for three threads (C73_three_threads_refuted). Proved for one and two threads in single precision for every schedule (C73_two_threads); in exact arithmetic see C50_any_schedule."
  },
  {
   "property": "C74",
   "status": "partial",
   "theorems": [
    "C74_arguments",
    "C74_default_is_one_thread_refuted",
    "C74_hosts_agree",
    "C74_no_threads_refuted",
    "C74_zero_replaced_refuted"
   ],
   "note": "Arguments and defaults proved, hosts of a cluster agree proved. REFUTED for the default number of threads: min(cpu_count() - 1, 1) is at most one, and zero on a machine with one processor, where the clustering divides by zero; and for explicit lengths of 0, which are replaced by the defaults (C74_zero_replaced_refuted)."
  },
  {
   "property": "C75",
   "status": "proved",
   "theorems": [
    "C75_clusterings",
    "C75_entries",
    "C75_windows"
   ],
   "note": "In single precision, for every order of the additions; up to 2^24 crossings per segment, edges and dimensions."
  },
  {
   "property": "C76",
   "status": "partial",
   "theorems": [
    "C76_aborts_iff",
    "C76_never_aborts_refuted"
   ],
   "note": "REFUTED as stated: aborts exactly if the crossings agree in every dimension of the segments that the first window visits (C76_aborts_iff); a clean series does. Otherwise the file is written."
  },
  {
   "property": "C77",
   "status": "partial",
   "theorems": [
    "C77_file_partial",
    "C77_median_refuted",
    "C77_own_row_refuted"
   ],
   "note": "REFUTED as stated: rows are replaced by copies of earlier rows, and the subtracted value is not the median. Proved: which row is copied, and that the subtracted value is within 1/79 of the upper median."
  },
  {
   "property": "C78",
   "status": "partial",
   "theorems": [
    "C78_all_results_if_late_notices_partial",
    "C78_early_leave_refuted",
    "C78_main_of_two_hosts_partial",
    "C78_no_infinite_run"
   ],
   "note": "REFUTED as stated for every cluster of at least three hosts (C78_early_leave_refuted): a sub host that handles the notice of a leaving host before it passed on a partial score strands the main host. Proved for two hosts, for any number of hosts if notices are handled only by hosts that have their result, and that every run ends."
  },
  {
   "property": "C79",
   "status": "partial",
   "theorems": [
    "C79_loss_is_permanent",
    "C79_main_waits_forever_refuted",
    "C79_sub_hosts_stop"
   ],
   "note": "REFUTED as stated, for every number of hosts: after the loss of a host that has not begun the exchange of the scores, the main host neither obtains a result nor ends in any continuation. Sub hosts do end."
  },
  {
   "property": "C80",
   "status": "proved",
   "theorems": [
    "C80_crossings_reach_their_owner",
    "C80_failed_crossing_stops_the_host",
    "C80_from_the_points",
    "C80_no_infinite_run",
    "C80_one_machine",
    "C80_one_stopped_host_stops_all"
   ],
   "note": "The computation of a single crossing is a parameter here; C63 and C64 are about it."
  },
  {
   "property": "C81",
   "status": "proved",
   "theorems": [
    "C81_aborts_if_first_across",
    "C81_delivered",
    "C81_one_machine",
    "C81_quiet_series_is_nan"
   ],
   "note": "One machine. The crossing computation, the clustering and the sector of a point are parameters; the numeric range theorem is for up to 2^24 crossings."
  },
  {
   "property": "C82",
   "status": "partial",
   "theorems": [
    "C82_every_run_ends",
    "C82_kept",
    "C82_mirrored_partial",
    "C82_mirrored_refuted",
    "C82_two_hosts"
   ],
   "note": "REFUTED as stated for three hosts with all messages in order (C82_mirrored_refuted): a mirrored first point reaches a host that still adds up, which distributes its unmirrored transitions and never the mirrored ones. Proved: if the points are kept, every execution is right (C82_kept); if they are mirrored, for two hosts, and for any number of hosts when first points are handled only by hosts that have decided; every run ends. As in C30, no ring message overtakes a late host; as in C28, every host has a usable pair."
  },
  {
   "property": "C83",
   "status": "partial",
   "theorems": [
    "C83_arrival_order_refuted",
    "C83_as_one_machine_partial",
    "C83_cluster_partial",
    "C83_delivered",
    "C83_grouped_as_one_machine_partial",
    "C83_some_execution"
   ],
   "note": "REFUTED as stated: with several crossings of one transition the scores depend on the order in which edges arrive at the transposition (C83_arrival_order_refuted, three hosts). Proved for every execution of all stages: no host aborts, all hosts get the same result, computed from one graph with the steps of the walk of the whole series, ordered by time (C83_cluster_partial); one score per window, all in 0..1 or all NaN (C83_delivered); exactly the scores of one machine (formula of C81) if each transition crosses into one segment and clustering decides by position alone (C83_as_one_machine_partial), or if clustering puts the same crossings together in every order, whatever numbers the clusters get (C83_grouped_as_one_machine_partial); complete executions exist (C83_some_execution). Missing: self-correction (C90), series outside well_distributed (C44, C67, C70), overtaking ring messages (C31). The crossing computation and the clustering are parameters."
  },
  {
   "property": "C84",
   "status": "partial",
   "theorems": [
    "C84_determined_exactly",
    "C84_directions_of_largest_variance",
    "C84_leading_zero_refuted",
    "C84_one_result",
    "C84_reduced_uncorrelated",
    "C84_units"
   ],
   "note": "REFUTED as stated for components whose first entry is 0: their sign is what the library returns (C84_leading_zero_refuted; for every series, the conditions below are also necessary: C84_determined_exactly). Proved over the reals: equal means and components for any two runs, on any numbers of hosts and threads, with any correct QR and SVD, if the three largest singular values are distinct from each other and the rest and no component starts with 0 (C84_one_result); directions of largest remaining variance, without these conditions (C84_directions_of_largest_variance); independence of units (C84_units); the reduced coordinates have mean 0 and are uncorrelated (C84_reduced_uncorrelated). As in C18 and C19: the main host knows all means when it finishes and no factor came early."
  },
  {
   "property": "C85",
   "status": "partial",
   "theorems": [
    "C85_points_as_one_machine_partial"
   ],
   "note": "REFUTED as stated for the choices of the library: C102_points_refuted gives a series whose points have the segments 1,2,3,0 with one correct decomposition and 2,1,0,3 with another. Proved over the reals for any two runs, given that every channel determines its components (distinct leading singular values, no leading zero: C84 refutes it otherwise) and that the analyses end as C18 and C19 describe; the extremes are those of C10, the number of rows that of C11. Every host must have at least one pattern of rows."
  },
  {
   "property": "C86",
   "status": "partial",
   "theorems": [
    "C86_aborts_iff_constant_refuted",
    "C86_any_schedule",
    "C86_groups",
    "C86_order",
    "C86_two_crossings_no_peak_refuted",
    "C86_units"
   ],
   "note": "REFUTED as stated: a channel in which all crossings have the same distance aborts the clustering, and nothing else does (C86_aborts_iff_constant_refuted); with two crossings no position is denser than both neighbours, so their centre is 0, not a peak (C86_two_crossings_no_peak_refuted). Proved over the reals for all other crossings: the groups (C86_groups) and their independence of message order (C86_any_schedule), of order and threads (C86_order) and of units per channel (C86_units). The range check of the hashed centres is left out (C49 has it in single precision)."
  },
  {
   "property": "C87",
   "status": "proved",
   "theorems": [
    "C87_any_host",
    "C87_below_half_turn",
    "C87_crossing",
    "C87_meets_the_border",
    "C87_units"
   ],
   "note": "Over the reals, for every inverse function that finds inverses of regular matrices and only those (C87_crossing, C87_any_host); the crossing lies on the line and on the border (C87_meets_the_border); factors (C87_units); steps below half a turn (C87_below_half_turn)."
  },
  {
   "property": "C88",
   "status": "partial",
   "theorems": [
    "C88_cluster_as_one_machine_partial",
    "C88_cluster_in_other_units_partial"
   ],
   "note": "REFUTED as stated if the libraries may differ and the components are not determined (C102_scores_refuted). Proved: every complete execution on N >= 2 hosts, from the rows to the scores, gives every host the scores that every complete execution on one machine gives (C88_cluster_as_one_machine_partial), with the points, crossings and clustering over the reals and the scores in single precision; also if the machine is given the series in other units (C88_cluster_in_other_units_partial). Missing: self-correction (C90), steps that cross into several segments (refuted, C83), series outside well_distributed (C44, C67, C70), segments crossed repeatedly at one distance (aborts, C86), rounding before the labels."
  },
  {
   "property": "C89",
   "status": "proved",
   "theorems": [
    "C89_libraries",
    "C89_units"
   ],
   "note": "Over the reals up to the labels, scores in single precision; equality of the two analyses as values, including aborts and self-correction (C89_units), in particular for one series and two libraries (C89_libraries). One factor for all channels: the segments compare the first coordinates of two channels (C61)."
  },
  {
   "property": "C90",
   "status": "partial",
   "theorems": [
    "C90_cluster_as_one_machine_partial",
    "C90_corrected_partial",
    "C90_delivered",
    "C90_some_execution"
   ],
   "note": "C90_corrected_partial, C90_delivered, C90_some_execution: from the points of the hosts; C90_cluster_as_one_machine_partial: from the rows, over the reals up to the labels. Asked for: order of delivery as in C82 (three hosts deliver too early: C82_mirrored_refuted); the provisos of C83 and C88 for the points that are followed; and that the one machine decides as the cluster does, which it need not (C53_cluster_decides_differently_refuted). Missing without these."
  },
  {
   "property": "C91",
   "status": "proved",
   "theorems": [
    "C91_statistics_everywhere"
   ],
   "note": "Over the reals, for files the reader can distribute (C06; C07 otherwise) and numbers within the range of f32 (C10); the start of the training on all hosts is that of C04. The standard deviations are only claimed to be equal on all hosts: their value is the subject of C12."
  },
  {
   "property": "C92",
   "status": "partial",
   "theorems": [
    "C92_array_alone",
    "C92_array_with_hosts_refuted"
   ],
   "note": "REFUTED as stated: with a cluster size of two or more among the parameters the only process waits for statistics that nobody sends, so the call does not return (C92_array_with_hosts_refuted). Proved for cluster size one (C92_array_alone)."
  },
  {
   "property": "C93",
   "status": "proved",
   "theorems": [
    "C93_scores_are_returned"
   ],
   "note": "For every sequence of polls of the sink; that the runtime polls at least once after the score was written, and that stopping the system does not end the call before, are properties of actix and not modelled."
  },
  {
   "property": "C94",
   "status": "partial",
   "theorems": [
    "C94_file_to_scores_correcting_partial",
    "C94_file_to_scores_partial"
   ],
   "note": "C94_file_to_scores_partial and C94_file_to_scores_correcting_partial: C91 and C92 in front of C88 and C90, with their provisos (series outside well_distributed, segments crossed repeatedly at one distance, steps into several segments, order of delivery with self-correction) and over the reals up to the labels. The principal components are those of any run as C84 describes."
  },
  {
   "property": "C95",
   "status": "partial",
   "theorems": [
    "C95_no_file",
    "C95_not_creatable",
    "C95_reported_exactly",
    "C95_same_name_refuted",
    "C95_score_file",
    "C95_success_means_complete_refuted",
    "C95_with_table"
   ],
   "note": "REFUTED as stated: C95_success_means_complete_refuted (the csv writer is dropped without a flush whose error is looked at: whenever all scores fit into its buffer and not onto the disk, the file is cut and the process ends as usual) and C95_same_name_refuted (score file and table of contributions with the same name: the scores are gone). C95_reported_exactly: an incomplete file is reported exactly if more than the last buffer is missing. C95_score_file, C95_no_file, C95_with_table: with enough space every file is complete, nothing else is touched, and the answer comes after both files. C95_not_creatable: a name that cannot be created leaves the caller without answer. The text of a number and the capacity of the buffer are arbitrary."
  },
  {
   "property": "C96",
   "status": "partial",
   "theorems": [
    "C96_cluster_exactly",
    "C96_cluster_without_file_refuted",
    "C96_explainability_on_clusters",
    "C96_file_on_one_machine_partial",
    "C96_no_hosts_refuted",
    "C96_nothing_to_read_refuted"
   ],
   "note": "REFUTED as stated: C96_nothing_to_read_refuted (a sub process with the default cluster size of one, or a main process without a data path: it starts, handles one message and waits for ever without an error), C96_cluster_without_file_refuted (the same for a whole cluster) and C96_no_hosts_refuted (a cluster size of zero is accepted; the file is read, its rows are kept for ever). C96_file_on_one_machine_partial and C96_cluster_exactly: with a file the data arrives and preprocessing starts once on every host, exactly if the main host was given a file. C96_explainability_on_clusters: what the program refuses and what the library does instead."
  },
  {
   "property": "C97",
   "status": "partial",
   "theorems": [
    "C97_hosts_are_introduced",
    "C97_score_files_as_one_machine_partial",
    "C97_score_files_correcting_partial"
   ],
   "note": "C97_hosts_are_introduced (C04): however the hosts find each other, their tables number all hosts by one list with the main host first. C97_score_files_as_one_machine_partial and C97_score_files_correcting_partial: with this the conditions of C94 on the joining are gone, and the conclusion reaches the bytes of the files (C95). Partial because the conditions of C94 on the data remain (the refutations of C88 and C90 show that they cannot all be dropped), and f32 is the real numbers up to the labels of the clusters."
  },
  {
   "property": "C98",
   "status": "partial",
   "theorems": [
    "C98_any_layout_refuted",
    "C98_row_by_row",
    "C98_rows",
    "C98_rust_exactly"
   ],
   "note": "REFUTED as stated: C98_any_layout_refuted: min_axis and max_axis panic with \"Not yet implemented!\" unless neighbours of a row are neighbours in memory, and the conversion to f32 by astype keeps the order of the axes, so an array kept column by column (the values of a pandas frame, a transposed array) with at least two rows aborts the analysis. C98_row_by_row: an array whose column stride is not larger than its row stride is analysed, with the extremes of its columns; C98_rows: astype keeps the entries; C98_rust_exactly: in Rust the column stride must be 1. The layouts numpy's astype (order K) and ndarray's to_owned return are taken from their documentation."
  },
  {
   "property": "C99",
   "status": "partial",
   "theorems": [
    "C99_always_a_segment",
    "C99_close_to_the_sector",
    "C99_in_order",
    "C99_not_a_number",
    "C99_own_sector_refuted",
    "C99_right_away_from_borders",
    "C99_stored_points"
   ],
   "note": "REFUTED as stated: C99_own_sector_refuted: with rate 85 the direction of the point (1,0) (and of the origin) gets segment 84 instead of 0, with the default rate 100 an angle just below 0 gets segment 0 instead of 99. C99_always_a_segment: any value, even NaN, gets a segment below the rate; C99_not_a_number: NaN gets segment 0, and rate 0 aborts. C99_close_to_the_sector: the segment is that of a direction at most 2^-18 away. C99_right_away_from_borders: so it is the right one for points that are farther than that, plus the error of the angle, from every border. C99_in_order: larger angles never get an earlier segment. C99_stored_points: the same for the numbered points of a host. atan2 itself is not modelled: its error is a variable."
  }
 ]
}