# Formal model of Series2Graph++ (S2Gpp) in Rocq

Everything is under `rocq/theories/`, logical prefix `Verif`. Build: `coq_makefile -f _CoqProject -o Makefile && make -j4`
(about 5 minutes).

## 1. Conventions of the model

* `usize` is `nat` (or `Z` where the Rust code casts to `isize`); 64-bit overflow is not modelled. `usize` underflow,
  division by zero, `unwrap` of `None`, slices/indices out of bounds, failing `into_shape` and explicit `panic!`
  are the data value `Panic <reason>` of the result type `res` (`Base/Res.v`), never a default value.
  A `Panic` in the model ends the handler; theorems only say that the aborting handler has no further effect. What happens then depends on the build: in release builds
  the process ends (`panic = "abort"`, `Cargo.toml:17-18`), otherwise the runtime of the actor or the helper thread ends. C110 states the difference for the helper threads.
  `usize` underflow is a `Panic` as in builds with overflow checks (tests, `cargo run`). Release builds wrap around instead. A theorem with an `Ok` result holds for both, as no
  subtraction went below zero. A theorem about an abort with reason `Underflow` is about checked builds; C111 carries it over to release builds for the columns, the windows of the series, the time index and
  the windows to score, and shows where the builds differ (pattern length 0 on a cluster, statistics of a host with too few rows). The remaining ones (an empty file, an empty density, 0 hosts in the
  listener, the reference data set) are stated for checked builds only.
* Hash maps / hash sets are association lists / duplicate-free lists whose order is the iteration order. As all theorems
  quantify over these lists, they hold for every iteration order.
* `f32`: three levels, named in each file: (a) an arbitrary type with arbitrary operations (theorem holds for
  every floating-point semantics), (b) Coq's real numbers (idealised, no rounding), (c) Flocq's IEEE `binary32`.
* Actors: a handler is a function `state -> message -> state * sends`. Schedules are explicit: theorems quantify over
  every list of scheduler choices (which in-flight message is delivered next, FIFO or not, as stated per theorem). "Always ends" is
  proved as: no infinite run, and every run that cannot go on is in the stated final state.
* Every definition of a model file carries a comment with file and lines in /repo; definitions of the scheduler and of the
  network say that no code corresponds to them.
* Layout per topic: `<Topic>/Model.v` (code; further model files are named in section 3), `<Topic>/Spec.v` (independent
  specification, where the statement needs one), `<Topic>/*Proofs.v` (lemmas), `Properties/<Topic>.v` (only the property
  theorems, closed by `exact`, each followed by `Print Assumptions`, with non-vacuity `Example`s).
* A theorem name starts with the property id. `_refuted`: the code violates the property, here is the witness or the class of
  failing inputs. `_partial`: proved under a condition the full statement does not have.

## 2. Plan per property

| Property | Modelled | Proof method |
|---|---|---|
| C01, C02 | `Parameters::{segments_per_node, segment_id_to_assignment, first_segment_of_i_next_cluster_node}` | integer division arithmetic; C02 refuted by witness and by a general abort lemma |
| C03 | `ClusterNodes`, `AnyClusterNodes`, iterator | sums over permutations of `seq`; modular arithmetic |
| C04, C05, C56 | `ClusterMemberListener` handlers as event state machine | invariant over event lists; C05, C56 refuted by witness |
| C06-C08 | `DataReader::read_csv` loop with its three buffers and the receiver iterator | loop invariant on the number of consumed rows; refutations by general lemma / witness |
| C09 | `FromTo`, column slicing of `Handler<DataPartitionMessage>` | list lemmas |
| C10-C12 | `MinMaxCalculator`, `StdCalculator` | fold over permutations; real algebra; refutation by witness |
| C13, C14 | `Preprocessor`, `PreprocessingHelper` | invariant over all schedules; identity |
| C15, C16 | `PhaseSpacer::build`, point id offsets | induction on windows, composition with C06 |
| C17-C19, C59 | PCA tree reduction as message-passing system (hosts, threads, channels) | invariant over all schedules (`Pca/Proofs.v`, `Order.v`, `One.v`); several channels by simulating each channel by a run of that channel alone (`Rounds.v`); refutations by explicit schedules, and for C19 by following every continuation after an early factor (`Lost.v`) |
| C20 | Gram matrices of the reduction, QR as oracle | real algebra (scatter decomposition) over every run of the C17 system |
| C21 | chunking of rows over helper threads | arithmetic; refutation |
| C22, C60, C61 | `get_rotation_matrix`, `normalize`, `apply_rotation_matrix` | real algebra (field), flat array layout |
| C23, C54 | `get_segment_id`, `to_polar`, `mirror` over the reals | floor arithmetic |
| C24, C25 | `TransitionMixin`, segment list of `calculate_intersections` | integer case analysis |
| C26, C27, C28, C53 | `build_segments` and the handlers of segmentation | induction over the point list, distributed state machine |
| C29, C30, C31, C32 | `DirectProtocol`, `RotationProtocol`, `HelperProtocol` in an N-node network | invariants over all schedules; refutation by schedule; for every ring of three or more hosts by an invariant of the runs after one overtaken contribution (Protocol/LateProofs.v) |
| C33, C34, C67 | `NodeQuestions`, split search, questions and answers | induction over the transitions, refutation by witness, composition with C29 |
| C35-C37, C66 | `EdgesOrderer`, `connect_nodes`, `sort_edges` | induction over crossed segments; refutation by witness |
| C38 | `assign_edges_to_neighbours` + exchange | multiset reasoning on top of C29 |
| C39, C40 | edge weights and degrees; a host that begins late in a cluster of any size | multiset reasoning; the run of C31 with the tallies of what was taken in |
| C41, C42, C71 | `count_edges_in_time`, window slicing | loop invariant |
| C43, C44 | `parallel_score`, response handler, `fill_up_first_missing_points` | invariant over response permutations; refutation by schedule |
| C45, C70 | sizes and contents of the assembled vector of one machine and of a cluster | arithmetic on top of C06, C15, C41, C52 |
| C46, C72 | `normalize_score`, `score_p_degree` in binary32 (Flocq) | monotonicity of rounding |
| C47-C50, C69, C73 | KDE peak search, closest peak, labels, task split, the three clustering actors | list induction; invariant over schedules; binary32 witnesses |
| C51, C63, C64 | `line_plane_intersection`, border planes | real linear algebra on lists; trigonometry |
| C52 | overlap exchange | induction over the chain of nodes |
| C55, C74 | Python wrapper and bindings | case analysis over all arguments |
| C57 | `ReferenceDatasetBuilder::build` | real algebra |
| C58 | control flow of the data manager | invariant over all message orders |
| C62 | hand-over of the alignment matrix | invariant over all schedules |
| C65 | both weight rings of one host | counting over interleavings |
| C68 | `estimate_nodes` and the clustering response handler | induction over segments |
| C75-C77 | explainability: contributions, queries, contribution file | binary32 bounds, list induction |
| C78-C79 | shutdown: hosts that leave after their result, notices of leaving, lost hosts, on top of the ring of partial scores | invariant of the ring, weight for termination, executable schedules |
| C80 | tasks, results, own and foreign crossings, messages by segment, exchange, store | filing by segment as a partition of the results; C27, C29, C25 |
| C81 | the stages from rotated points to scores chained as the handlers chain them | composition of C26, C53, C80, C68, C36, C37, C42, C43, C46 |
| C82 | hosts, ring of counts, decision, rebuilding, first points, with three delivery disciplines | simulation by the hand-over model of C27 in both cases; a 3-host run for the refutation |
| C83 | all stages of a cluster from rotated points to scores, chained over all complete executions of each | composition of C27, C28, C80, C65, C66, C70, C40, C52, C41, C42, C43, C46; two runs of three hosts for the refutation |
| C84 | the components computed from the final factor, the reduction of a row; SVD as an oracle with a contract | spectral argument: expansion in the eigenbasis, uniqueness of separated eigenvectors up to sign; C60 for the factor |
| C85 | the chain from the rows of a host to its points: embedding, one analysis per channel, reference row, alignment, rotation, numbering | refinement: uniqueness of components (C84), distributed embedding (C14), concatenation of numbered points |
| C86 | the clustering of one segment over the reals: grid, bandwidth, kernel, peaks, labels | equality with the textbook density, peaks and nearest peaks as relations, numbering determined by the groups; monotonicity of two bells (mean value theorem) |
| C87 | the distances recorded for a crossing over the reals: plane points from what a host holds, inverse as a parameter | explicit formula for the intersection; both sides of the determinant of the system; scaling |
| C88 | the chain from rows to scores on a cluster and on one machine | composition of C85, C87, C86 and the grouped form of C83 with C81; a worked series of nine rows on two hosts |
| C89 | the analysis of one machine, on a series and on the same series in other units | naturality of the stages in the coordinates (`Pipeline/Natural.v`); window sums, components, alignment, sectors, crossings and clustering scale |
| C90 | the decision protocol (`Correction/Model.v`) in front of the stages of C83 (`Pipeline/Correcting.v`), and from the rows (`Analysis/Correcting.v`) | the end of every execution of the protocol is the end of an execution of the hand-over on the mirrored or kept points; then C83 and C88 |
| C91 | all data managers with their data, messages on the network and mailboxes (`Manager/Collect.v`) | invariant over the messages under way, with a ghost record of what each host has sent; a measure decreases at every step; then C06, C10, C11 |
| C92 | the same handlers on one host that is given an array | the execution is a path of five (three) states |
| C93 | the sink and the channel (`Interface/Model.v`) | induction over the sequence of polls |
| C94 | the models of C91, C92, C88 and C90 in sequence | the final states of the statistics stage determine the inputs of the later stages |
| C95 | the end of the analysis: buffered csv writer, files with limited room, the table of contributions, the answer | what the buffer has passed on after n bytes is the largest multiple of the capacity below n (induction over the bytes) |
| C96 | `s2gpp`, `s2gpp_async`, `main`, the role of each host in the handler of LoadDataMessage | with no reader the messages left strictly decrease and nothing is stored; with one reader at host 0 the executions are those of C91 |
| C97 | the listener, the statistics stage, the analysis and the end of the scoring, one after the other | composition of C04, C94 and C95; the tables of C04 with addresses replaced by places are the tables the statistics stage is about |
| C98 | arrays as memory with row and column strides, `astype`, the panic of `min_axis` and `max_axis` | case analysis of the strides after `astype` |
| C99 | `get_segment_id` on Flocq's binary32, with the cast to usize saturating and NaN going to 0 | relative errors of the four roundings; monotonicity of rounding; two computed angles |
| C100 | the means of the threads' rows and their weighted sum in Flocq's binary32, in the order in which the messages of the modelled threads arrive | construction of a run for every order; uniqueness of the tree by induction on the protocol's steps; rounding error bounds by induction on the sums |
| C101 | the same means on a cluster: the rows of every host, its threads, the weighted sum over the hosts, in binary32, in the order in which the messages of the modelled hosts arrive | construction of a run for every order of the hosts; a family of columns for every number of hosts; rounding error bounds composed over threads and hosts |
| C102 | the whole analysis of one machine (Analysis/Model.v) with the libraries as parameters | refutation: a series with a component that starts with 0, decomposed in two correct ways, points and crossings computed exactly, scores in binary32; exact condition: exchange of equal values, turned directions |
| C103 | a cluster from the rows on (Analysis/Model.v, Pipeline/Cluster.v), hand-over of first points (Segmentation/Handover.v) | equal rows give equal windows, points and segments; invariant of the hand-over: no first point under way to the host before; an exchange without one host never ends; with self-correction (Correction/Model.v) the invariant over both segmentations, before and after mirroring; refutation with one series, eigenvectors and points computed exactly |
| C104 | windows, means, reduction, rotation, segments in single precision (Front/Single.v); dot products as a relation: any order, grouping, fused or not | NaN is kept by every operation; the row is in some window, so one mean is NaN, so every reduced value of the channel; all segments 0, then the hand-over invariant of C103 and C81, with self-correction that of C103 for mirrored points |
| C105 | windows of a partition (PhaseSpace/Model.v), one machine and cluster from the rows on (Analysis/Model.v, Analysis/Correcting.v) | windows as slices of the whole series; the extremes do not change; outcomes are functions of windows and extremes |
| C106 | points from the rows on (Front/Model.v), one machine (Analysis/Model.v), a series with two channels (Analysis/Columns.v) | windows, reduction and rotation act channel by channel; refutation with exact components of both channels and both orders of the columns |
| C107 | Front/SingleAlign.v: reference row, norm, alignment matrix in single precision; extremes of Stats/Single.v, means and points of Front/Single.v | exact arithmetic on whole numbers up to 2^24 through the means of threads and hosts; zeros and NaN are closed under the operations of the products; then as C104 |
| C108 | as C107, with the extremes of Stats/Single.v | the difference of the extremes overflows, the reference and with it the matrix of the channel are NaN; then as C104 |
| C109 | embedding, component slice, window count and helper answers, chained as in C81 and C88 | embedding by C15; the slices of latent 0 are empty; invariant over all runs with empty answers, C43 and C44 for the others |
| C110 | a pool of helper threads whose tasks may fail, with the panic setting of the build (`Protocol/Workers.v`) | invariant over all histories: every task waits, is lost or answered; decreasing measure |
| C111 | subtraction that wraps around, `PhaseSpacer::build`, `count_edges_in_time`, `score`, the windows and summands of a helper, overlap, assembly, reference data set, `read_csv`, the choice of columns and `calculate_std` with it (`Base/Release.v` and `{PhaseSpace,Scoring,Reader,Stats}/Release.v`) | case analysis of every subtraction below zero; induction over windows and edges |
| C112 | as C108 | an infinite value is an extreme of its channel (C10), so the reference starts with NaN; then as C108 |

No property is planned as not expressible.

## 3. Trusted base

* Coq 8.16.1 kernel (and `coqchk` in the gate); no native or VM conversion is disabled or added; no axioms of our own; the axioms
  of section 5.
* The faithfulness of the models to the cited lines: this is by reading. /repo is not executed.
* The delivery model of actix and actix-telepathy stated as step relations. Unless a theorem says otherwise any message under way
  may be delivered next; theorems that need order (FIFO links, FIFO mailboxes) say so.

### Modelled code

| Source | Model | What is left out |
|---|---|---|
| `parameters.rs` | `Base/Params.v`, `Topology/Model.v`, `Wrapper/Model.v` | command line parsing, logging options |
| `utils/mod.rs` | `Topology/Model.v` | conversions between address types |
| `utils/{direct,rotation,helper}_protocol.rs` | `Protocol/Model.v` | - |
| `utils/itertools.rs` | `Reader/Model.v` (`FromTo`) | - |
| `utils/float_approx.rs` | `Kde/Model.v`, `Kde/Float.v`, `Contribution/Model.v` | `f64` instances |
| `utils/geometry.rs`, `utils/ndarray_extensions/mod.rs` | `Geometry/Model.v`, `Geometry/Single.v`, `Manager/Layout.v`, `Stats/Model.v`, `Kde/Float.v` | the inverse is an oracle; real numbers |
| `cluster_listener.rs` | `Listener/Model.v` | the gossip protocol of telepathy |
| `data_manager/mod.rs` | `Manager/Model.v`, `Reader/Model.v` | console output |
| the data managers of all hosts with their data | `Manager/Collect.v` | the main host is host 0 (C04); real numbers |
| `interface/{mod,sink}.rs` | `Interface/Model.v` | `SinkWrite` of actix: any sequence of polls |
| `data_manager/data_reader` | `Reader/Model.v` | the CSV parser (rows of fields are the input); float parsing |
| `data_manager/stats_collector` | `Stats/Model.v`, `Stats/Single.v` | - (real numbers or abstract floats) |
| `data_manager/preprocessor` | `Preprocess/Model.v` | - |
| `data_manager/phase_spacer`, `reference_dataset_builder` | `PhaseSpace/Model.v` | random numbers are not used by the code; real numbers |
| `training/rotation/pca` | `Pca/Model.v`, `Pca/Gram.v`, `Pca/Components.v` | QR and SVD are oracles with contracts |
| `training/rotation/mod.rs` | `Rotation/Model.v`, `Geometry/Model.v`, `Pca/Components.v` (`reduce`) | |
| `phase_spacer` → `rotation` → `data_store` as one chain | `Front/Model.v` | the results of the analyses (C84) and the extremes (C10) are inputs |
| `training/segmentation` | `Segmentation/Model.v`, `Segmentation/Handover.v` | - |
| `data_store/{point,transition,node_questions,index,edge,node}` | `Geometry/Model.v`, `Transition/Model.v`, `Segmentation/Model.v`, `Nodes/Model.v`, `Edges/Model.v` | reference counting |
| `training/intersection_calculation` | `Transition/Model.v`, `Geometry/Model.v`, `Protocol/Pool.v`, `Protocol/Workers.v`, `Protocol/Exchange.v` | - |
| `training/node_estimation` | `Nodes/Model.v`, `Protocol/Exchange.v` | `wait_send` is a send |
| `training/node_estimation/multi_kde` | `Kde/Model.v`, `Kde/Float.v`, `Kde/System.v` | `exp`, `powf` and `sqrt` are parameters; the unused sequential variant (`gaussian_kde.rs`, `gaussian_kernel_estimate.rs`) |
| the same over the reals | `Kde/Real.v` | range check of hashed centres left out |
| `training/intersection_calculation` over the reals | `Intersections/Real.v` | inverse as a parameter |
| all stages from the rows to the scores | `Analysis/Model.v`, `Analysis/Correcting.v` (self-correction on a cluster) | components are an input (C84) |
| `training/edge_estimation` | `Edges/Model.v` | - |
| `training/transposition` | `Transposition/Model.v` | - |
| `training/scoring` | `Scoring/Model.v`, `Scoring/Release.v`, `Scoring/Overlap.v`, `Normalize/Model.v`, `Protocol/Ring.v`, `Protocol/Pool.v` | - (files: next row) |
| `training/scoring/mod.rs` `finalize_scoring`, `output_score`, `Handler<QueryClusterContributionResponse>` | `Output/Model.v` | a file takes a fixed number of bytes; the text of a number is a parameter |
| `lib.rs`, `bin/s2gpp.rs`, `Role` | `Entry/Model.v` | command line parsing, logging |
| `training/mod.rs` `Handler<ScoringDone>`, `cluster_listener.rs` `MemberLeft` at shutdown | `Shutdown/Model.v` | the network layer (telepathy) |
| `training/intersection_calculation/{mod,helper}.rs`: tasks, results, distribution | `Intersections/Model.v` | the geometry of one crossing is a parameter (see `Geometry`) |
| `training/mod.rs`: the stages of one machine from rotated points to scores | `Pipeline/Model.v` | the sector, mirror image, crossing and clustering computations are parameters |
| `training/mod.rs`: the stages of a cluster from rotated points to scores | `Pipeline/Cluster.v` | a stage starts from the states in which the hosts leave the stage before; rings without overtaking; no self-correction; crossing and clustering computations are parameters |
| `segmentation/mod.rs:83-110, 245-269, 290-382, 385-455`: self-correction on a cluster | `Correction/Model.v` | the mirrored points are a parameter; the distribution after it is the exchange of C29 |
| `training/anomaly_contribution` | `Contribution/Model.v` | unused functions `calculate_distances`, `combine_dimensions` |
| `python_binding.rs`, `s2gpp/__init__.py` | `Wrapper/Model.v`, `Manager/Layout.v` | the interpreter; layouts of converted arrays as numpy (`astype`, order K) and ndarray (`to_owned`) document them |

### Not modelled

`SinkWrite` of actix under `interface/`, `utils/logging`,
`utils/ndarray_extensions/{shift,softmax,index_arr,boolean,stack}.rs` (helpers; `stack` and `boolean` appear inside the
clustering model), all tests, serialization, wall-clock time, the runtimes of actix and telepathy themselves, LAPACK, console output.


## 4. Findings: properties the code does not have

The model follows the code, so a property the code violates is *refuted* (a theorem `…_refuted` or an exact
characterisation of the failing inputs); what does hold is proved next to it. Status `partial` in MANIFEST.json means exactly that,
except where the note says that something is only proved under a condition.

* **C02 Owner lookup for clusters larger than the number of segments.** REFUTED as stated: C02_owner_lookup_refuted is a witness, C02_owner_lookup_aborts shows that every configuration with more nodes than segments aborts; the guarded positive statement is C01.
* **C05 Repeated join notifications do not restart the analysis.** REFUTED as stated: witness C05_start_at_most_once_refuted. C05_starts_exactly and C05_sub_starts_exactly give the number of starts of the main host and of every other host for every sequence of announcements, lists and departures; runs without repeated notifications are C04.
* **C07 The CSV reader copes with every remainder.** REFUTED as stated: C07_large_remainder_aborts shows that the reader aborts for every remainder larger than the overlap; C07_aborts_exactly gives the exact condition; C06 is the positive case.
* **C08 Long patterns relative to the partition size.** REFUTED as stated: witness. C08_what_is_sent describes what the reader sends for every number of rows, receivers and every pattern length; C08_right_exactly gives the exact condition under which every receiver gets its partition.
* **C100 Repeating an analysis centres the windows by the same numbers.** REFUTED as stated: C100_repeated_run_refuted: from three threads on, the means of the threads are added in single precision in the order their messages arrive, so for every number of threads from 3 to 2^24 there is a column whose mean is 0 in one run and 1/n in another. C100_orders: exactly which orders occur (the main thread's first, the others in any order); C100_same_factor: the factors are merged by the same tree in every run; C100_two_threads: with at most two threads all runs agree; C100_runs_agree_approximately_partial: the means of two runs differ at most by the rounding errors of the summation over the threads; C100_hosts_orders, C100_hosts_same_factor and C100_hosts_repeated_run_refuted say the same of hosts with one thread each: every order of the other hosts occurs, the tree is always the same, and from three hosts on the means depend on the order; C100_every_run_accurate: and each is the mean of the column up to rounding errors. The windows are modelled as kept row by row, where the library adds the rows one after the other.
* **C101 The numbers of hosts and threads do not change by what the windows are centred.** REFUTED as stated: C101_hosts_refuted: for every number n of hosts from two on (with 2n at most 2^24) there is a column, two rows per host, whose mean is 0 on one machine with one thread and the rounded 1/(2n) on n hosts, whatever the order of their messages; C101_threads_refuted: from three threads on there is a column whose mean on one machine is 0 with one thread and positive with that many. C101_close_partial: on any number of hosts that all have rows, with any numbers of threads, in every order, the column is centred by its mean up to an explicit rounding error that depends on the numbers of hosts, threads and rows per thread. Hosts without rows and means lost on the way are left to C18.
* **C102 The scores do not depend on the numerical library.** REFUTED as stated: C102_scores_refuted: a series of seven measurements (one swing: -1,-1,1,1,-1,-1,0) with three distinct principal values, for which one correct decomposition leads to the scores 1, 0, 0 and another correct decomposition of the same matrix to three NaN, in every complete execution; C102_points_refuted: the points go round counter-clockwise with one and clockwise with the other, and clockwise steps are not followed. The cause: the sign rule of normalize looks at the first entry of a component only. Here the second component vanishes at the first delay. Proved: the scores are the same for any two libraries if the components are determined (C89_libraries), and the components are determined exactly if the three largest principal values are distinct from each other and the rest and no component starts with 0 (C84_determined_exactly). Over the reals up to the labels, scores in single precision.
* **C103 A cluster finishes the analysis of every series that one machine finishes.** REFUTED as stated: C103_cluster_finishes_refuted: fifteen measurements with determined components; one machine delivers one entry per window in every complete execution, a cluster of three hosts, the second of which gets measurements that are all -1, never finishes. In general (C103_no_host_goes_on, C103_resting_part_never_finishes), for every series, setting and number of hosts: if the measurements of a host other than the first are all equal, its points lie in one segment, it has no usable transition and sends no first point; the host before it waits forever, whatever the order of events, and no host gets through the exchange of transitions. What holds instead: C88, if every part has a usable transition. The same with self-correction, whether the hosts mirror their points or not and however first points and counts overtake each other: C103_correcting_no_host_goes_on, C103_correcting_never_finishes. Over the reals.
* **C104 A missing measurement affects only the windows that contain it.** REFUTED as stated: C104_only_its_windows_refuted: if a value of any row but the last is missing, both coordinates that its channel contributes to a point are NaN, for every point on every host, because the means of all windows are subtracted from every window (rotation/mod.rs:69-129) and one of them is NaN. If the value is missing in one of the first two columns, every point gets segment 0; a cluster then never gets through the exchange of transitions (C104_cluster_waits_refuted; with self-correction C104_correcting_cluster_waits_refuted), and one machine delivers NaN for every window (C104_one_machine_refuted). What holds is C104_windows_partial: before centring, only windows that contain the row are affected. In single precision; sums and products in any order, grouping or fusion, components and rotation arbitrary. Not modelled: what the numerical library does with such data; if it reports an error, the analysis aborts earlier.
* **C105 Every measurement of the series enters the analysis.** REFUTED as stated: C105_no_window_has_it_refuted: no window contains the last row, because a window covers pattern_length - 1 rows only (phase_spacer/mod.rs:17-65) while their number counts windows of pattern_length rows. So two series that differ only in the last row and have the same extremes have the same outcomes, on one machine (C105_one_machine_refuted) and on a cluster (C105_cluster_refuted, C105_correcting_cluster_refuted): an anomaly in the last measurement is never found. What holds: every other row belongs to a window, and changing one of its values changes the windows (C105_every_other_row_partial).
* **C106 All columns of a multi-channel series count alike.** REFUTED as stated: with two or more channels the coordinates of a point are first all first and then all second coordinates of the channels (rotation/mod.rs:205-229), while its segment is computed from the first two (point.rs:33-35), so from the first two columns only. C106_two_columns_decide_refuted: two series that agree in the first two columns have the same points in the same segments and the same steps, whatever the other columns contain. C106_exchanged_columns_refuted: exchanging two columns turns the direction of travel round: a series gets numbers, and with its columns exchanged no number at all, in every complete execution. What holds is the other reading of the first theorem: exchanging columns after the second leaves points, segments and steps as they are. Over the reals.
* **C107 A channel that never changes does not disturb the analysis of the others.** refuted, in single precision: if a channel shows the same whole number in every row (zero, for instance), its means, extremes and reference point are computed exactly, whatever the numbers of hosts and threads and the order of their messages; the reduced reference is zero, get_rotation_matrix divides zero by zero, and every entry of the matrix of the channel is NaN. Both coordinates of the channel are NaN for every point. If it is one of the first two channels, every point has segment 0, so that a cluster never gets through the exchange of transitions (with self-correction C107_correcting_cluster_waits_refuted) and one machine delivers only NaN. (The background oscillation of the preprocessor would prevent this, but it is written to a copy and dropped, C14.) What holds (partial): windows, extremes and reference of a channel depend on that channel only. Constants whose sums are rounded are not covered, nor what follows when only later channels are constant.
* **C108 A series of numbers gets points whose coordinates are numbers.** REFUTED as stated: the reference data set takes steps of (maximum - minimum) / 99 (Array::linspace); if two finite values of a channel differ by 2^128 or more, the difference is infinite, infinity times the index 0 is NaN, and with the reference every entry of the matrix and both coordinates of the channel are NaN for all points (C108_finite_series_refuted). If it is one of the first two channels, a cluster waits forever and one machine delivers only NaN (C108_cluster_waits_refuted, with self-correction C108_correcting_cluster_waits_refuted, C108_one_machine_refuted). What holds (C108_reference_partial): as long as the difference is a finite single precision number, the reference starts exactly with the minimum. Overflow in later sums and products is not covered.
* **C109 Lengths given on the command line are usable or refused with a reason.** Finding: the lengths are not checked against each other. A pattern shorter than latent + 3 is embedded and then aborts when three components are taken (slice out of range). With latent 0 every window is a row of zeros: all series of one length are analysed alike, the measurements have no influence. With n points, query length q and t threads: n < q is refused with a reason, n = q ends in an abort on an empty score list, q < n < q + t has orders of the answers that end without a result, and only q + t <= n always delivers one score per window. Proved: exactly when the embedding exists, the components for latent + 3 <= pattern length, and the four cases for every series whose stages before the scores succeed (as in C81).
* **C110 A failing helper thread does not leave the analysis waiting.** Proved for release builds (Cargo.toml makes a panic end the process): every execution with a failing task comes to rest with the process ended. REFUTED for all other builds (tests, cargo run, the crate as a library): the thread dies, the task is lost, and the requester waits for ever, neither going on nor aborting; one pair of opposite points is enough for the crossings of a host. C110_goes_on_partial: without failing tasks it goes on once, with all answers. Assumes that a panic in a helper thread only ends that thread (actix).
* **C111 Release builds and checked builds agree.** Same result, or both abort, for every word size large enough for the data: windows of every series with a row, reference data set, time index, scoring windows, overlap between hosts, summands of the scores (one machine), assembly of the scores, choice of columns, partitions (pattern length at least 1), statistics of a host that has the rows of the overlap. REFUTED: with pattern length 0 a cluster of release builds sends the whole series to the first host and nothing to the others (C111_pattern_zero_refuted); a host with fewer rows than the overlap reports the statistics of some of its first rows, as ndarray reads the wrapped end as one counted from the back (C111_statistics_refuted; building the windows aborts later, C111_windows); without rows and with both lengths 0 it goes on with one empty window (C111_no_rows_refuted).
* **C112 An infinite measurement is refused or affects only its windows.** REFUTED as stated: f32::from_str reads inf as a value; it becomes an extreme of its channel, so the step of the reference data set is infinite or NaN and its first row is NaN: both coordinates of the channel are NaN for every point of every host, wherever the value stands, even in the last row, which belongs to no window (C112_infinite_value_refuted). If it is one of the first two channels, a cluster waits forever and one machine delivers only NaN (C112_cluster_waits_refuted, with self-correction C112_correcting_cluster_waits_refuted, C112_one_machine_refuted). Not modelled: what the numerical library does with such data; if it reports an error, the analysis aborts earlier.
* **C12 The published standard deviation is the standard deviation of the column.** REFUTED as stated for two or more nodes: C12_two_nodes_refuted. Proved: one node (C12_single_node), nodes with equal means (C12_equal_means), and for any number of nodes and any order of arrival exactly what is published (C12_cluster_published; C12_two_node_error for two): with two rows per node never too large, with three rows per node right exactly if all nodes have the same mean (C12_cluster_never_too_large, C12_cluster_correct_exactly).
* **C18 The main node knows all column means before it finalizes the PCA.** REFUTED as stated between hosts (two witnesses: 2 hosts with several threads, 4 hosts with one thread; both FIFO). Proved for the helper threads of one host; between hosts with one thread each if nothing is received before the own PCA begins and no factor overtakes means that belong to it (C18_means_ahead_partial), which FIFO channels guarantee for up to three hosts (C18_three_hosts_partial); with several threads per host if moreover nothing is received while the threads are at work on the own factor (C59_hosts_with_threads_in_step_partial).
* **C19 Early reduction messages are not lost.** REFUTED as stated: 2 hosts, FIFO, for one thread and for several threads. In general (C19_early_factor_stops_everything_refuted): for any numbers of hosts and threads, one early factor is enough that no continuation ever finalizes.
* **C21 The thread-level PCA gives every helper thread a part of the rows.** REFUTED as stated (9 rows, 4 threads: no run ever yields a result). Proved: tiling for all sizes; completion for rows > (threads-1)^2; exact condition.
* **C28 The hand-over of the first point never blocks or aborts.** REFUTED as stated (from measurements to the hang: C103): a partition without usable transition blocks its predecessor forever and aborts itself when the first point of the next partition arrives; an early first point aborts the receiver. Proved: completion under the two conditions, how every maximal run without early first points ends on each host (C28_ends_exactly), no infinite run.
* **C31 Ring exchanges tolerate late starters.** REFUTED as stated: with three hosts and a late starter a host takes in its own contribution and misses another one although every host reports to be finished (C31_late_start_refuted); such a run exists in every ring of three or more hosts (C31_every_ring_refuted). What holds in every run: each host finishes exactly once, with as many contributions as there are other hosts (C31_counts_partial). For two hosts proved (C31_two_hosts_partial).
* **C33 Questions between nodes cover exactly the node changes of the path.** REFUTED as stated for a first transition that starts in the last segment of its owner (one extra question about a crossing that does not exist). Proved: exact characterisation for all sequences; exactly the host changes of the path otherwise.
* **C34 Crossing from one partition to the next keeps the path connected.** REFUTED as stated in two ways (spanning pair usable / not usable). Proved: every other step of the path is asked for, and exactly when the border step may be lost.
* **C36 Edge creation never aborts on the first transition.** REFUTED as stated: exactly the first transitions crossing into the last segment and then segment 0 abort on one machine (C36_aborts_exactly_if). On a cluster edge creation always succeeds.
* **C39 Edge weights are the multiplicities of edges in the whole graph.** Proved on one machine, and on a cluster if no ring message overtakes a late host. REFUTED for a cluster of three with a late host (C39_late_start_refuted): an edge is counted twice and another not at all. In every cluster of three or more hosts there is a run in which the last host counts its own edges twice and those of the first host not at all (C39_every_cluster_refuted), so an edge of the graph has its weight only if both hosts hold it equally often (C39_late_exactly).
* **C40 Node degrees count distinct incident edges and are never zero for a scored edge.** Proved on one machine, and on a cluster under the condition of the statement (equal edges on the same machine; C40_same_edge_on_two_hosts shows it is needed) if no ring message overtakes a late host. REFUTED for every cluster of three or more hosts with a late host (C40_every_cluster_refuted): the last host adds its own degrees twice and those of the first host not at all.
* **C41 The time index of edges is the cumulative edge count.** Proved for every list whose time stamps are not all 0; REFUTED for the remaining lists (C41_only_time_zero_refuted).
* **C44 Scoring terminates for every number of threads.** REFUTED as stated: for every graph with fewer windows than threads there is an order of responses after which scoring waits forever.
* **C53 Self-correction on a cluster decides as on a single machine.** REFUTED as stated: usable pairs that stay at their host are reported twice. Proved: the decision on one machine, and the exact number every host reports.
* **C55 The clustering methods offered by the Python wrapper are accepted.** REFUTED as stated: the wrapper offers 'meanshift', and every analysis with it aborts, whatever the other arguments; 'kde' is accepted.
* **C56 Training is only started with members that are still connected.** REFUTED as stated: witness. C56_members_that_left_are_counted: for every history of announcements and departures each start hands over exactly the hosts announced so far, those that left included.
* **C59 Every channel of a multi-channel series gets its PCA.** REFUTED as stated: 2 hosts, 2 channels, one thread, FIFO. Proved for one host with any number of channels and threads, and for any number of hosts with one thread each as long as no host handles a factor or means of a channel it has not begun and no factor overtakes its means; with several threads each if moreover no host receives either while its threads are at work (C59_hosts_with_threads_in_step_partial).
* **C63 A border is crossed between the two points and on the right side of the origin.** REFUTED as stated: a transition by exactly half of the segments can be intersected on the opposite side of the origin; proved for less than half, and for every usable transition an exact condition (C63_proper_crossing_exactly: the turn seen from the origin is less than half a turn).
* **C64 Computing crossings never aborts.** REFUTED as stated: opposite points make the matrix singular; proved for less than half a turn, and for every usable transition an exact condition (C64_aborts_exactly: the second point on the border, the first on the opposite ray).
* **C67 Every step of the series between two machines reaches the machine that stores it.** REFUTED as stated: a lost question at the border between two partitions (see C34) makes the cluster lose a step and invent another (C67_lost_border_step_refuted). Proved for all delivery orders: if no border step is lost, questions are complete, answers are complete and the cluster holds exactly the walk (C67_graph_of_a_cluster_partial).
* **C69 Clustering finite crossings does not abort.** REFUTED as stated: for every finite coordinate x two crossings sharing it abort the clustering, and so does every constant column with exact sums.
* **C70 A cluster returns the scores a single machine returns.** REFUTED as stated in four ways, by a late host in every cluster of three or more (C70_every_cluster_refuted). Proved: every host assembles the same vector, the windows of all hosts in order (C70_assembled); it is the single-machine vector if there is an edge just behind every partition border (C70_same_as_one_machine_partial).
* **C73 Clustering does not depend on the timing of its worker threads.** REFUTED as stated for three threads (C73_three_threads_refuted). Proved for one and two threads in single precision for every schedule (C73_two_threads); in exact arithmetic see C50_any_schedule.
* **C74 The Python wrapper hands every argument to the engine.** Arguments and defaults proved, hosts of a cluster agree proved. REFUTED for the default number of threads: min(cpu_count() - 1, 1) is at most one, and zero on a machine with one processor, where the clustering divides by zero; and for explicit lengths of 0, which are replaced by the defaults (C74_zero_replaced_refuted).
* **C76 Explainability never aborts an analysis.** REFUTED as stated: aborts exactly if the crossings agree in every dimension of the segments that the first window visits (C76_aborts_iff); a clean series does. Otherwise the file is written.
* **C77 Every row of the contribution file describes its own window.** REFUTED as stated: rows are replaced by copies of earlier rows, and the subtracted value is not the median. Proved: which row is copied, and that the subtracted value is within 1/79 of the upper median.
* **C78 The main host always obtains the complete scores.** REFUTED as stated for every cluster of at least three hosts (C78_early_leave_refuted): a sub host that handles the notice of a leaving host before it passed on a partial score strands the main host. Proved for two hosts, for any number of hosts if notices are handled only by hosts that have their result, and that every run ends.
* **C79 The loss of a host ends the analysis.** REFUTED as stated, for every number of hosts: after the loss of a host that has not begun the exchange of the scores, the main host neither obtains a result nor ends in any continuation. Sub hosts do end.
* **C82 Self-correction takes one decision on the whole cluster and leaves one segmentation.** REFUTED as stated for three hosts with all messages in order (C82_mirrored_refuted): a mirrored first point reaches a host that still adds up, which distributes its unmirrored transitions and never the mirrored ones. Proved: if the points are kept, every execution is right (C82_kept); if they are mirrored, for two hosts, and for any number of hosts when first points are handled only by hosts that have decided; every run ends. As in C30, no ring message overtakes a late host; as in C28, every host has a usable pair.
* **C83 A cluster analysis gives every host the scores one machine would give.** REFUTED as stated: with several crossings of one transition the scores depend on the order in which edges arrive at the transposition (C83_arrival_order_refuted, three hosts). Proved for every execution of all stages: no host aborts, all hosts get the same result, computed from one graph with the steps of the walk of the whole series, ordered by time (C83_cluster_partial); one score per window, all in 0..1 or all NaN (C83_delivered); exactly the scores of one machine (formula of C81) if each transition crosses into one segment and clustering decides by position alone (C83_as_one_machine_partial), or if clustering puts the same crossings together in every order, whatever numbers the clusters get (C83_grouped_as_one_machine_partial); complete executions exist (C83_some_execution). Missing: self-correction (C90), series outside well_distributed (C44, C67, C70), overtaking ring messages (C31). The crossing computation and the clustering are parameters.
* **C84 The principal components are those of the whole series, whatever the cluster.** REFUTED as stated for components whose first entry is 0: their sign is what the library returns (C84_leading_zero_refuted; for every series, the conditions below are also necessary: C84_determined_exactly). Proved over the reals: equal means and components for any two runs, on any numbers of hosts and threads, with any correct QR and SVD, if the three largest singular values are distinct from each other and the rest and no component starts with 0 (C84_one_result); directions of largest remaining variance, without these conditions (C84_directions_of_largest_variance); independence of units (C84_units); the reduced coordinates have mean 0 and are uncorrelated (C84_reduced_uncorrelated). As in C18 and C19: the main host knows all means when it finishes and no factor came early.
* **C85 The rotated points of a cluster are those of one machine.** REFUTED as stated for the choices of the library: C102_points_refuted gives a series whose points have the segments 1,2,3,0 with one correct decomposition and 2,1,0,3 with another. Proved over the reals for any two runs, given that every channel determines its components (distinct leading singular values, no leading zero: C84 refutes it otherwise) and that the analyses end as C18 and C19 describe; the extremes are those of C10, the number of rows that of C11. Every host must have at least one pattern of rows.
* **C86 Crossings are grouped by the nearest peaks of their density.** REFUTED as stated: a channel in which all crossings have the same distance aborts the clustering, and nothing else does (C86_aborts_iff_constant_refuted); with two crossings no position is denser than both neighbours, so their centre is 0, not a peak (C86_two_crossings_no_peak_refuted). Proved over the reals for all other crossings: the groups (C86_groups) and their independence of message order (C86_any_schedule), of order and threads (C86_order) and of units per channel (C86_units). The range check of the hashed centres is left out (C49 has it in single precision).
* **C88 A cluster gives the scores of one machine, from the rows to the scores.** REFUTED as stated if the libraries may differ and the components are not determined (C102_scores_refuted). Proved: every complete execution on N >= 2 hosts, from the rows to the scores, gives every host the scores that every complete execution on one machine gives (C88_cluster_as_one_machine_partial), with the points, crossings and clustering over the reals and the scores in single precision; also if the machine is given the series in other units (C88_cluster_in_other_units_partial). Missing: self-correction (C90), steps that cross into several segments (refuted, C83), series outside well_distributed (C44, C67, C70), segments crossed repeatedly at one distance (aborts, C86), rounding before the labels.
* **C90 A cluster with self-correction computes the scores of one machine.** C90_corrected_partial, C90_delivered, C90_some_execution: from the points of the hosts; C90_cluster_as_one_machine_partial: from the rows, over the reals up to the labels. Asked for: order of delivery as in C82 (three hosts deliver too early: C82_mirrored_refuted); the provisos of C83 and C88 for the points that are followed; and that the one machine decides as the cluster does, which it need not (C53_cluster_decides_differently_refuted). Missing without these.
* **C92 An array given by the caller is analysed as it is.** REFUTED as stated: with a cluster size of two or more among the parameters the only process waits for statistics that nobody sends, so the call does not return (C92_array_with_hosts_refuted). Proved for cluster size one (C92_array_alone).
* **C94 The scores of a file do not depend on how many machines analyse it.** C94_file_to_scores_partial and C94_file_to_scores_correcting_partial: C91 and C92 in front of C88 and C90, with their provisos (series outside well_distributed, segments crossed repeatedly at one distance, steps into several segments, order of delivery with self-correction) and over the reals up to the labels. The principal components are those of any run as C84 describes.
* **C95 When the analysis ends normally the score file is complete.** REFUTED as stated: C95_success_means_complete_refuted (the csv writer is dropped without a flush whose error is looked at: whenever all scores fit into its buffer and not onto the disk, the file is cut and the process ends as usual) and C95_same_name_refuted (score file and table of contributions with the same name: the scores are gone). C95_reported_exactly: an incomplete file is reported exactly if more than the last buffer is missing. C95_score_file, C95_no_file, C95_with_table: with enough space every file is complete, nothing else is touched, and the answer comes after both files. C95_not_creatable: a name that cannot be created leaves the caller without answer. The text of a number and the capacity of the buffer are arbitrary.
* **C96 A started program gets its data or says why not.** REFUTED as stated: C96_nothing_to_read_refuted (a sub process with the default cluster size of one, or a main process without a data path: it starts, handles one message and waits for ever without an error), C96_cluster_without_file_refuted (the same for a whole cluster) and C96_no_hosts_refuted (a cluster size of zero is accepted; the file is read, its rows are kept for ever). C96_file_on_one_machine_partial and C96_cluster_exactly: with a file the data arrives and preprocessing starts once on every host, exactly if the main host was given a file. C96_explainability_on_clusters: what the program refuses and what the library does instead.
* **C97 Every host of a cluster writes the score file one machine writes.** C97_hosts_are_introduced (C04): however the hosts find each other, their tables number all hosts by one list with the main host first. C97_score_files_as_one_machine_partial and C97_score_files_correcting_partial: with this the conditions of C94 on the joining are gone, and the conclusion reaches the bytes of the files (C95). Partial because the conditions of C94 on the data remain (the refutations of C88 and C90 show that they cannot all be dropped), and f32 is the real numbers up to the labels of the clusters.
* **C98 The memory layout of an array does not matter.** REFUTED as stated: C98_any_layout_refuted: min_axis and max_axis panic with "Not yet implemented!" unless neighbours of a row are neighbours in memory, and the conversion to f32 by astype keeps the order of the axes, so an array kept column by column (the values of a pandas frame, a transposed array) with at least two rows aborts the analysis. C98_row_by_row: an array whose column stride is not larger than its row stride is analysed, with the extremes of its columns; C98_rows: astype keeps the entries; C98_rust_exactly: in Rust the column stride must be 1. The layouts numpy's astype (order K) and ndarray's to_owned return are taken from their documentation.
* **C99 Segments as they are computed in single precision.** REFUTED as stated: C99_own_sector_refuted: with rate 85 the direction of the point (1,0) (and of the origin) gets segment 84 instead of 0, with the default rate 100 an angle just below 0 gets segment 0 instead of 99. C99_always_a_segment: any value, even NaN, gets a segment below the rate; C99_not_a_number: NaN gets segment 0, and rate 0 aborts. C99_close_to_the_sector: the segment is that of a direction at most 2^-18 away. C99_right_away_from_borders: so it is the right one for points that are farther than that, plus the error of the angle, from every border. C99_in_order: larger angles never get an earlier segment. C99_stored_points: the same for the numbered points of a host. atan2 itself is not modelled: its error is a variable.

Conditions and limits of the proved ones (MANIFEST notes):

* **C01 Every angular segment has exactly one owner in the cluster.** Ownership of segments and first owned segment, for every rate >= cluster size >= 1.
* **C10 Minimum and maximum of the data set are global, whatever the arrival order.** C10_global_minmax over the reals; C10_single_precision for f32 with infinities and values that are not numbers, which are ignored; C10_no_numbers: a column without numbers gets the largest value as minimum and the lowest as maximum.
* **C13 Column preprocessing dispatches every column exactly once within the thread limit.** For at least one thread and one column; without either the stage never finishes (C13_no_threads_hang, C13_no_columns_hang).
* **C17 The distributed QR reduction merges every node's factor exactly once.** Hosts: any number, any number of threads, with or without FIFO, one channel, hypothesis: no host receives a factor before it begins its own PCA (C19 shows that it is needed). Helper threads: no hypothesis. Termination is proved as absence of infinite runs plus the state of every run that cannot go on.
* **C20 The merged factor has the Gram matrix of the globally centred data.** f32 is R; qr is any function whose result has the same Gram matrix. Proved for helper threads (every run), hosts with one thread and hosts with several threads, for every finalization that knows all means (C18); and for every channel of a run with several channels, on one host and on hosts in step (C20_channels_scatter, C20_channels_with_threads_scatter).
* **C22 The alignment matrix is a rotation that maps the reference direction to the third axis.** Per channel through the flat (3,3,n) layout; reference point not on the third axis. On the axis the code divides by zero: C22_on_the_axis shows in single precision that every entry of the matrix is NaN then.
* **C23 Every point lies in an existing segment and the segment is the angular sector that contains it.** Exact real angles; f32 rounding near a border is not modelled.
* **C26 Segmentation records all usable transitions of the point sequence in order.** All point sequences; the ids of recorded transitions follow the numbering of the points.
* **C27 Distributed segmentation records the same transitions as a single machine.** All partitions with a usable transition each, all schedules of the hand-over without early first points, all delivery orders of the exchange (composition with C29).
* **C29 Every exchange of buckets between all nodes delivers everything exactly once.** Generic model of the all-to-all exchange used five times; any delivery order (not only FIFO), any start times; safety at every moment, completeness when nothing is left to do, and no infinite run. wait_send in the answers is not modelled.
* **C30 Ring exchanges give every node the contribution of every other node exactly once.** Ring exchange with FIFO links and FIFO mailboxes; proved under the stated condition and under the weaker condition that buffered contributions are not overtaken.
* **C32 Pools of helper workers answer completely and exactly once.** Pool of helpers as used by the intersection stage and by the kernel density estimation; every answer order.
* **C35 Nodes of one transition are connected in travel order.** Travel order for every usable transition with a predecessor, including the wrap-around; stored order only assumed to be a permutation sorted by segment.
* **C37 The edge list of a single machine is the walk of the series through the graph.** Edge list = consecutive pairs of the walk, for every storage order within a segment; consecutive edges join.
* **C38 Transposition moves every edge to the owner of its time stamp.** All delivery orders. Condition: at least as many rows as hosts (otherwise DivByZero, C38_more_hosts_than_rows_aborts).
* **C42 Scoring never reads outside the edge list.** Every window, weight and degree access and every subtraction; query lengths 0 or too long abort explicitly.
* **C43 The score does not depend on the number of threads or the order of their answers.** Exactly one vector is passed on, the sequential one; every run ends. Floating point operations are abstract parameters.
* **C45 The result has one score per window.** One machine and cluster.
* **C46 Scores are normalized to [0,1].** For all finite vectors that are not constant and whose range does not overflow; C46_one_machine connects it to the raw scores of a single machine (no overflow possible up to 2^24 edges). Finding: a constant vector gives NaN everywhere (C46_constant_is_nan_refuted), an empty one aborts.
* **C47 Kernel density peaks are exactly the strict local maxima.** For every vector, every strict order and every peak order; the engine's instance (single precision, order 1) separately.
* **C48 Every value is assigned to a nearest cluster centre.** In single precision the rounded distance is minimised (first of equals); a really nearer centre can lose by rounding (C48_really_nearest_refuted). Exact version over the reals.
* **C49 Cluster labels identify centres.** Single precision entries with the engine's hash conversion; entries that cannot be converted abort (C49_not_hashable_aborts).
* **C50 Splitting density evaluation over threads does not change the sum.** Exact arithmetic: any commutative monoid, all thread counts, all arrival orders; the actors with arbitrary delivery order, including the number of deliveries.
* **C51 Intersections lie on the transition and on the segment border.** For every correct matrix inversion; border plane in any even dimension.
* **C52 Overlap exchange gives each node the time index of its successor's first windows.** All moments of readiness and delivery orders.
* **C58 A host processes its partition exactly once, whatever the message order.** Control flow only; the numerical work is C06, C10-C14.
* **C65 The end of the weight initialisation is announced exactly once.** Counters of both rings on one host, every interleaving.
* **C66 Each host creates exactly the edges that leave its own nodes.** Every host; union is the whole walk. answers_complete is the specification of the answers (see C67 for where it comes from).
* **C68 Every crossing becomes exactly one node.** For every clustering function that returns one label per row; the hosts' crossings are given in any order.
* **C71 A window is scored by the edges of its time range and the one that follows.** Also for cluster windows, see C70.
* **C72 The raw score of a window is the negated average of its summed weights.** Sum and division in IEEE single precision.
* **C75 The contribution of a dimension is the rarity of the coordinates visited.** In single precision, for every order of the additions; up to 2^24 crossings per segment, edges and dimensions.
* **C80 Every crossing of the series reaches the machine that owns its segment, exactly once.** The computation of a single crossing is a parameter here; C63 and C64 are about it.
* **C81 The outcome of an analysis on one machine is determined by the rotated points, from end to end.** One machine. The crossing computation, the clustering and the sector of a point are parameters; the numeric range theorem is for up to 2^24 crossings.
* **C87 Where the series crosses a border is a matter of two points.** Over the reals, for every inverse function that finds inverses of regular matrices and only those (C87_crossing, C87_any_host); the crossing lies on the line and on the border (C87_meets_the_border); factors (C87_units); steps below half a turn (C87_below_half_turn).
* **C89 The scores do not depend on the units of the measurements.** Over the reals up to the labels, scores in single precision; equality of the two analyses as values, including aborts and self-correction (C89_units), in particular for one series and two libraries (C89_libraries). One factor for all channels: the segments compare the first coordinates of two channels (C61).
* **C91 Every host starts preprocessing once, with its rows and the same statistics.** Over the reals, for files the reader can distribute (C06; C07 otherwise) and numbers within the range of f32 (C10); the start of the training on all hosts is that of C04. The standard deviations are only claimed to be equal on all hosts: their value is the subject of C12.
* **C93 The caller of the array interface receives the scores.** For every sequence of polls of the sink; that the runtime polls at least once after the score was written, and that stopping the system does not end the call before, are properties of actix and not modelled.

## 5. Axioms per theorem (`Print Assumptions`)

`coqchk` and `Print Assumptions` list only axioms of Coq's standard library. They enter through the real numbers (`Coq.Reals`) and,
below them, through Flocq. Short names:

* FE = `functional_extensionality_dep` (Coq.Logic.FunctionalExtensionality)
* SF = `ClassicalDedekindReals.sig_forall_dec` (Coq.Reals)
* SN = `ClassicalDedekindReals.sig_not_dec` (Coq.Reals)
* CL = `Classical_Prop.classic` (Coq.Logic)

No theorem depends on an axiom of another library or of this development.

**Closed under the global context** (209):

`C01_first_segment_is_smallest_owned`, `C01_segment_ownership`, `C02_owner_lookup_aborts`, `C02_owner_lookup_refuted`,
`C03_cyclic_node_distance`, `C03_iterator`, `C03_next_previous_inverse`, `C03_own_index_and_neighbours`,
`C03_ring_covers_cluster`, `C03_single_host_has_no_neighbour`, `C04_cluster_agreement`, `C04_runs_exist`,
`C05_start_at_most_once_refuted`, `C05_starts_exactly`, `C05_sub_starts_exactly`, `C06_rows_reach_their_nodes`,
`C07_aborts_exactly`, `C07_every_remainder_refuted`, `C07_large_remainder_aborts`, `C08_long_pattern_refuted`,
`C08_right_exactly`, `C08_what_is_sent`, `C09_bad_range_fails`, `C09_column_selection`, `C100_hosts_orders`,
`C100_hosts_same_factor`, `C100_orders`, `C100_same_factor`, `C100_two_threads`, `C105_no_window_has_it_refuted`,
`C109_embeds_exactly_if`, `C110_crossings_refuted`, `C110_goes_on_partial`, `C110_no_helper_refuted`, `C110_release`,
`C110_waits_forever_refuted`, `C111_assembled`, `C111_columns`, `C111_no_rows_refuted`, `C111_overlap`,
`C111_pattern_zero_refuted`, `C111_reader`, `C111_scoring`, `C111_summands`, `C111_time_index`, `C111_windows`,
`C13_every_column_once`, `C13_no_columns_hang`, `C13_no_threads_hang`, `C13_progress`,
`C14_preprocessing_is_identity`, `C15_embedding`, `C16_distributed_embedding`, `C16_point_ids`,
`C17_helper_threads_merge_every_factor_once`, `C17_helper_threads_terminate`, `C17_hosts_merge_every_factor_once`,
`C17_hosts_terminate`, `C18_four_hosts_refuted`, `C18_helper_threads_know_all_means`, `C18_means_ahead_partial`,
`C18_three_hosts_partial`, `C18_two_hosts_refuted`, `C19_early_factor_lost_refuted`,
`C19_early_factor_stops_everything_refuted`, `C21_chunks_tile_the_rows`, `C21_completes_exactly_if`,
`C21_completes_partial`, `C21_every_row_count_refuted`, `C24_transition_or_reverse_usable`,
`C24_usable_iff_forward_at_most_half`, `C25_crossed_borders`, `C26_single_machine_records_usable_pairs`,
`C26_transition_ids`, `C27_distributed_segmentation`, `C27_union`, `C28_completes_partial`,
`C28_early_first_point_aborts_refuted`, `C28_ends_exactly`, `C28_no_infinite_run`, `C28_waits_forever_refuted`,
`C29_every_bucket_exactly_once`, `C29_leaves_once_after_everything`, `C29_never_twice`, `C29_no_infinite_run`,
`C30_every_contribution_exactly_once`, `C30_every_contribution_if_not_overtaken`, `C30_never_twice`,
`C30_no_infinite_run`, `C31_counts_partial`, `C31_every_ring_refuted`, `C31_late_start_refuted`,
`C31_two_hosts_partial`, `C32_not_before`, `C32_pool`, `C33_exactly_the_host_changes_partial`,
`C33_extra_question_refuted`, `C33_questions`, `C34_border_partial`, `C34_no_spanning_transition_refuted`,
`C34_nothing_invented`, `C34_spanning_transition_refuted`, `C35_travel_order`, `C36_aborts_exactly_if`,
`C36_first_transition_refuted`, `C36_succeeds_partial`, `C37_single_machine_walk`, `C38_edges_reach_their_owner`,
`C38_more_hosts_than_rows_aborts`, `C38_never_aborts`, `C39_cluster_weights`, `C39_every_cluster_refuted`,
`C39_every_edge_has_a_weight`, `C39_late_exactly`, `C39_late_start_refuted`, `C39_weights_are_multiplicities`,
`C40_cluster_degrees`, `C40_degrees`, `C40_every_cluster_refuted`, `C40_source_degree_positive`, `C41_monotone`,
`C41_only_time_zero_refuted`, `C41_time_index`, `C42_no_abort`, `C42_query_length_zero_aborts`,
`C42_query_too_long_aborts`, `C42_windows`, `C43_independent_of_threads`, `C43_no_infinite_run`,
`C44_fewer_windows_than_threads_refuted`, `C45_length_cluster`, `C45_length_one_machine`, `C46_empty_aborts`,
`C47_empty_aborts`, `C47_peaks`, `C49_one_label_per_row`, `C50_any_schedule`, `C50_no_threads_aborts`, `C50_ranges`,
`C50_sum`, `C52_every_run_ends`, `C52_overlap`, `C53_cluster_decides_differently_refuted`,
`C53_cluster_report_partial`, `C53_single_machine_decision_partial`, `C54_distance_reversed`, `C55_kde_partial`,
`C55_meanshift_refuted`, `C56_members_that_left_are_counted`, `C56_start_with_connected_members_refuted`,
`C58_partition_processed_once`, `C59_hosts_in_step_partial`, `C59_hosts_with_threads_in_step_partial`,
`C59_one_host_partial`, `C59_second_channel_refuted`, `C62_matrix_applied_once`, `C62_matrix_terminates`,
`C65_announced_once`, `C66_edges_of_a_host`, `C66_union`, `C67_answers_complete`, `C67_graph_of_a_cluster_partial`,
`C67_lost_border_step_refuted`, `C67_questions_cover_partial`, `C68_failed_clustering_aborts`,
`C68_one_node_per_crossing`, `C70_arrival_order_refuted`, `C70_assembled`, `C70_border_window_refuted`,
`C70_every_cluster_refuted`, `C70_first_window_empty_aborts_refuted`, `C70_host_vector`, `C70_late_start_refuted`,
`C70_same_as_one_machine_partial`, `C71_window_content`, `C74_arguments`, `C74_default_is_one_thread_refuted`,
`C74_hosts_agree`, `C74_no_threads_refuted`, `C74_zero_replaced_refuted`, `C78_all_results_if_late_notices_partial`,
`C78_early_leave_refuted`, `C78_main_of_two_hosts_partial`, `C78_no_infinite_run`, `C79_loss_is_permanent`,
`C79_main_waits_forever_refuted`, `C79_sub_hosts_stop`, `C80_crossings_reach_their_owner`,
`C80_failed_crossing_stops_the_host`, `C80_from_the_points`, `C80_no_infinite_run`, `C80_one_machine`,
`C80_one_stopped_host_stops_all`, `C82_every_run_ends`, `C82_kept`, `C82_mirrored_partial`, `C82_mirrored_refuted`,
`C82_two_hosts`, `C93_scores_are_returned`, `C95_no_file`, `C95_not_creatable`, `C95_reported_exactly`,
`C95_same_name_refuted`, `C95_score_file`, `C95_success_means_complete_refuted`, `C95_with_table`,
`C96_explainability_on_clusters`, `C97_hosts_are_introduced`, `C98_rows`

**FE + SF** (15):

`C10_global_minmax`, `C105_every_other_row_partial`, `C109_narrow_window_refuted`, `C109_window_partial`,
`C111_reference`, `C111_statistics_partial`, `C111_statistics_refuted`, `C12_node_message`, `C48_nearest_exact`,
`C57_reference_dataset`, `C60_component_sign`, `C84_leading_zero_refuted`, `C98_any_layout_refuted`, `C98_row_by_row`,
`C98_rust_exactly`

**FE + SF + SN** (39):

`C11_published_length`, `C110_opposite_points_refuted`, `C12_cluster_correct_exactly`, `C12_cluster_never_too_large`,
`C12_cluster_published`, `C12_equal_means`, `C12_single_node`, `C12_two_node_error`, `C12_two_nodes_refuted`,
`C20_channels_scatter`, `C20_channels_with_threads_scatter`, `C20_helper_threads_scatter`, `C20_hosts_scatter`,
`C20_hosts_with_threads_scatter`, `C22_alignment_matrix`, `C51_intersection_on_line_and_border`,
`C63_crossing_between_points_partial`, `C63_proper_crossing_exactly`, `C63_stored_distance_partial`,
`C64_aborts_exactly`, `C64_intersection_exists_partial`, `C64_opposite_points_refuted`, `C84_determined_exactly`,
`C84_directions_of_largest_variance`, `C84_one_result`, `C84_reduced_uncorrelated`, `C84_units`, `C87_any_host`,
`C87_crossing`, `C87_meets_the_border`, `C87_units`, `C91_statistics_everywhere`, `C92_array_alone`,
`C92_array_with_hosts_refuted`, `C96_cluster_exactly`, `C96_cluster_without_file_refuted`,
`C96_file_on_one_machine_partial`, `C96_no_hosts_refuted`, `C96_nothing_to_read_refuted`

**FE + SF + SN + CL** (113):

`C10_no_numbers`, `C10_single_precision`, `C100_every_run_accurate`, `C100_hosts_repeated_run_refuted`,
`C100_repeated_run_refuted`, `C100_runs_agree_approximately_partial`, `C101_close_partial`, `C101_hosts_refuted`,
`C101_threads_refuted`, `C102_points_refuted`, `C102_scores_refuted`, `C103_cluster_finishes_refuted`,
`C103_correcting_never_finishes`, `C103_correcting_no_host_goes_on`, `C103_no_host_goes_on`,
`C103_resting_part_never_finishes`, `C104_cluster_waits_refuted`, `C104_correcting_cluster_waits_refuted`,
`C104_one_machine_refuted`, `C104_only_its_windows_refuted`, `C104_windows_partial`, `C105_cluster_refuted`,
`C105_correcting_cluster_refuted`, `C105_one_machine_refuted`, `C106_exchanged_columns_refuted`,
`C106_two_columns_decide_refuted`, `C107_cluster_waits_refuted`, `C107_correcting_cluster_waits_refuted`,
`C107_kept_apart_partial`, `C107_one_machine_refuted`, `C107_other_channels_refuted`, `C108_cluster_waits_refuted`,
`C108_correcting_cluster_waits_refuted`, `C108_finite_series_refuted`, `C108_one_machine_refuted`,
`C108_reference_partial`, `C109_by_length_refuted`, `C109_latent_zero_refuted`, `C112_cluster_waits_refuted`,
`C112_correcting_cluster_waits_refuted`, `C112_infinite_value_refuted`, `C112_one_machine_refuted`, `C22_on_the_axis`,
`C23_origin_in_first_segment`, `C23_segment_is_sector`, `C46_constant_is_nan_refuted`,
`C46_equal_scores_are_nan_refuted`, `C46_no_overflow`, `C46_normalized`, `C46_one_machine`, `C47_order_1`,
`C48_nan_aborts`, `C48_nearest`, `C48_really_nearest_refuted`, `C49_labels`, `C49_not_hashable_aborts`,
`C54_mirror_reverses`, `C54_mirror_twice`, `C61_one_channel`, `C61_points_numbered`, `C61_several_channels`,
`C63_half_turn_refuted`, `C69_constant_aborts_refuted`, `C69_two_equal_abort_refuted`, `C72_negated_average`,
`C72_not_positive`, `C73_three_threads_refuted`, `C73_two_threads`, `C75_clusterings`, `C75_entries`, `C75_windows`,
`C76_aborts_iff`, `C76_never_aborts_refuted`, `C77_file_partial`, `C77_median_refuted`, `C77_own_row_refuted`,
`C81_aborts_if_first_across`, `C81_delivered`, `C81_one_machine`, `C81_quiet_series_is_nan`,
`C83_arrival_order_refuted`, `C83_as_one_machine_partial`, `C83_cluster_partial`, `C83_delivered`,
`C83_grouped_as_one_machine_partial`, `C83_some_execution`, `C85_points_as_one_machine_partial`,
`C86_aborts_iff_constant_refuted`, `C86_any_schedule`, `C86_groups`, `C86_order`, `C86_two_crossings_no_peak_refuted`,
`C86_units`, `C87_below_half_turn`, `C88_cluster_as_one_machine_partial`, `C88_cluster_in_other_units_partial`,
`C89_libraries`, `C89_units`, `C90_cluster_as_one_machine_partial`, `C90_corrected_partial`, `C90_delivered`,
`C90_some_execution`, `C94_file_to_scores_correcting_partial`, `C94_file_to_scores_partial`,
`C97_score_files_as_one_machine_partial`, `C97_score_files_correcting_partial`, `C99_always_a_segment`,
`C99_close_to_the_sector`, `C99_in_order`, `C99_not_a_number`, `C99_own_sector_refuted`,
`C99_right_away_from_borders`, `C99_stored_points`

