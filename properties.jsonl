{"id": "C01", "title": "Every angular segment has exactly one owner in the cluster", "statement": "With 1 <= cluster-nodes <= rate, every segment id below rate is owned by exactly one cluster node; the nodes own consecutive, non-empty, ascending blocks of segments that cover 0..rate-1, and only the last node's block may be longer than the others. The segment returned for 'the first segment of the i-th next node' is the smallest segment owned by that node.", "quantifier": "all rates, cluster sizes between 1 and rate, segment ids below rate and hop counts i", "why_tests_cant": "the claim ranges over unboundedly many (rate, cluster size, segment) triples; remainder and boundary cases are easy to miss in samples", "anchors": ["src/parameters.rs: Parameters::segments_per_node, segment_id_to_assignment, first_segment_of_i_next_cluster_node"]}
{"id": "C02", "title": "Owner lookup for clusters larger than the number of segments", "statement": "Looking up the owner of a segment succeeds for every configuration the command line accepts. (Found false: with cluster-nodes > rate the number of segments per node is 0 and every lookup aborts the process.)", "quantifier": "all rates, cluster sizes and segment ids", "why_tests_cant": "unit tests only use small clusters with large rates; the failing region is an infinite family of configurations", "anchors": ["src/parameters.rs: Parameters::segment_id_to_assignment"]}
{"id": "C03", "title": "A node derives its own cluster index and its ring neighbours from its peer table", "statement": "If the peer table of a host holds exactly the other cluster indices, the host's own index is the missing one, the next and previous peers are its cyclic neighbours, next and previous are inverse, following next from any host visits every host once, and iterating over all addresses yields one address per index in ascending order with the local address exactly at the own index.", "quantifier": "all cluster sizes, own indices and iteration orders of the peer table", "why_tests_cant": "the peer table is a hash map: the claim quantifies over all sizes and all iteration orders", "anchors": ["src/utils/mod.rs: ClusterNodes::{get_own_idx,get_next_idx,get_previous_idx,get_shifted_idx,to_any}, AnyClusterNodesIterator"]}
{"id": "C04", "title": "All hosts agree on the numbering of the cluster and start training exactly once", "statement": "For every order in which the members join and in which the member list of the main host arrives, every host starts training exactly once, only after it knows all members, and all hosts use the same numbering: host h has index i exactly if h is at position i of the list sent by the main host, the main host having index 0.", "quantifier": "all cluster sizes, all distinct addresses, all interleavings of join events and the member list on every host", "why_tests_cant": "it is a property of all interleavings of cluster events on all hosts", "anchors": ["src/cluster_listener.rs: ClusterMemberListener::{sort_members,start_training}, Handler<ClusterLog>, Handler<SortedMembersMessage>"]}
{"id": "C05", "title": "Repeated join notifications do not restart the analysis", "statement": "A host starts training at most once for every sequence of cluster events, including repeated notifications for a member it already knows. (Found false: once all members are known, every further notification for a known member starts training again.)", "quantifier": "all sequences of cluster events", "why_tests_cant": "requires reasoning over all event histories, including repeated ones", "anchors": ["src/cluster_listener.rs: Handler<ClusterLog> for ClusterMemberListener"]}
{"id": "C06", "title": "The CSV reader hands every row to the right cluster node", "statement": "For n rows, N receivers and pattern length P with P <= n/N (integer division) and n mod N <= P-1, reading succeeds and receiver i gets exactly the rows [i*(n/N), (i+1)*(n/N)+P-1), the last receiver the rows [(N-1)*(n/N), n), in file order; each receiver is sent exactly one partition.", "quantifier": "all row contents, row counts, receiver counts and pattern lengths in the stated range", "why_tests_cant": "a loop with three buffers over unbounded input; the claim is about every row count and remainder", "anchors": ["src/data_manager/data_reader/mod.rs: DataReader::read_csv", "src/utils/mod.rs: AnyClusterNodesIterator::{next,last_position}"]}
{"id": "C07", "title": "The CSV reader copes with every remainder", "statement": "Reading succeeds for every number of rows that is at least the pattern length per node. (Found false: the reader recognises the last receiver one step too late, so whenever n mod N > P-1 it asks for an (N+1)-th receiver and aborts.)", "quantifier": "all row counts, receiver counts and pattern lengths with n mod N > P-1", "why_tests_cant": "infinite family of failing remainders", "anchors": ["src/data_manager/data_reader/mod.rs: DataReader::read_csv", "src/utils/mod.rs: AnyClusterNodesIterator::last_position"]}
{"id": "C08", "title": "Long patterns relative to the partition size", "statement": "Every receiver gets the rows of its own partition also if the pattern is longer than a partition. (Found false: with P > n/N and three or more receivers the reader carries too many rows over and the later receivers get wrong or no rows.)", "quantifier": "all row counts, receiver counts and pattern lengths", "why_tests_cant": "needs the exact row arithmetic of the buffer hand-over for all sizes", "anchors": ["src/data_manager/data_reader/mod.rs: DataReader::read_csv"]}
{"id": "C09", "title": "Column selection follows the documented start/end semantics", "statement": "For rows of equal width w, column-start a and column-end e, the selected matrix contains of every row exactly the columns a..e' in order, with e' = w for e = 0, e' = e for e > 0 and e' = w+e for e < 0, provided a <= e' <= w; otherwise loading fails instead of returning misaligned data.", "quantifier": "all rows, widths, starts and (possibly negative) ends", "why_tests_cant": "ranges over all integer arguments including negative and out-of-range ones", "anchors": ["src/data_manager/mod.rs: Handler<DataPartitionMessage> (until_column, n_columns, fromto)", "src/utils/itertools.rs: FromTo"]}
{"id": "C10", "title": "Minimum and maximum of the data set are global, whatever the arrival order", "statement": "After all nodes' statistics have arrived, in any order, the published per-column minimum and maximum are the minimum and maximum over all rows of all nodes, and every node receives the same values exactly once.", "quantifier": "all data partitions, numbers of nodes and arrival orders", "why_tests_cant": "order independence over all permutations and all data", "anchors": ["src/data_manager/stats_collector/minmax.rs: MinMaxCalculator", "src/utils/ndarray_extensions/mod.rs: min_axis, max_axis"]}
{"id": "C11", "title": "The published data set length is the number of rows", "statement": "The number n published to all nodes equals the number of rows of the input for every cluster size and arrival order, i.e. the overlap rows that are stored twice are counted once.", "quantifier": "all row counts, cluster sizes, pattern lengths in the range of C06, arrival orders", "why_tests_cant": "off-by-one in the overlap handling would only show for particular sizes", "anchors": ["src/data_manager/stats_collector/std.rs: StdCalculator", "src/data_manager/data_reader/mod.rs: read_csv"]}
{"id": "C12", "title": "The published standard deviation is the standard deviation of the column", "statement": "On a single node the published value is the sample standard deviation of each column; on several nodes it is the sample standard deviation of the whole column. (Found false for several nodes: the squared difference of means is weighted with 1 instead of n*m/(n+m).)", "quantifier": "all columns and all splits into partitions", "why_tests_cant": "numeric identity over all real inputs", "anchors": ["src/data_manager/stats_collector/std.rs: Handler<StdNodeMessage>, calculate_std"]}
{"id": "C13", "title": "Column preprocessing dispatches every column exactly once within the thread limit", "statement": "For every order in which workers answer, every column is handed to a worker exactly once, never more than n-threads columns are in flight, completion is reported exactly once and only after all columns were answered.", "quantifier": "all column counts, positive thread counts and all response orders", "why_tests_cant": "a concurrent scheduling property over all interleavings", "anchors": ["src/data_manager/preprocessor/mod.rs: Preprocessor::distribute_work, Handler<ProcessedColumnMessage>"]}
{"id": "C14", "title": "Preprocessing does not change the data", "statement": "The data matrix used by all later steps is exactly the selected input matrix: the column helper returns its input unchanged for every column. (The intended background oscillation for flat regions is therefore never applied - recorded as a finding.)", "quantifier": "all columns and parameters", "why_tests_cant": "universal over all data", "anchors": ["src/data_manager/preprocessor/helper.rs: preprocess", "src/data_manager/preprocessor/mod.rs: Handler<ProcessedColumnMessage>"]}
{"id": "C15", "title": "The embedding of a series is the matrix of all windows of convolved values", "statement": "For pattern length P and latent L with L < P and at least P rows, entry (i,j) of the embedding is the sum of rows i+j .. i+j+L-1, for every i < n-(P-1) and j < P-L; the incremental construction that reuses the previous window gives the same result as computing every window from scratch, for any (also non-associative floating point) addition.", "quantifier": "all data, pattern lengths, latents and any addition operation", "why_tests_cant": "incremental algorithm over unbounded input", "anchors": ["src/data_manager/phase_spacer/mod.rs: PhaseSpacer::build"]}
{"id": "C16", "title": "Distributed embedding equals the embedding computed on one machine", "statement": "Concatenating the embeddings that the nodes compute from their partitions, in node order, gives exactly the embedding of the complete series, and the id range used by a node for its points is the range of its windows in the complete embedding.", "quantifier": "all data, sizes and cluster sizes in the range of C06", "why_tests_cant": "an end-to-end equality over all inputs and cluster sizes", "anchors": ["src/data_manager/data_reader/mod.rs: read_csv", "src/data_manager/phase_spacer/mod.rs: build", "src/training/segmentation/mod.rs: build_segments"]}
{"id": "C17", "title": "The distributed QR reduction merges every node's factor exactly once", "statement": "For every cluster size, thread count and delivery order in which no host receives a factor before it begins its own PCA, the reduction of the local triangular factors terminates with the main node finalizing exactly once, after having merged the factor of every node exactly once; the same holds for the reduction between the helper threads of one host for every schedule.", "quantifier": "all cluster sizes and all asynchronous delivery orders", "why_tests_cant": "all cluster sizes including non powers of two and all message orders", "anchors": ["src/training/rotation/pca/mod.rs: PCAnalyzer::{send_to_neighbor_or_finalize,combine_remote_r,next_2_power}, Handler<PCADecompositionMessage>"]}
{"id": "C18", "title": "The main node knows all column means before it finalizes the PCA", "statement": "For every schedule the main node (or main helper thread) has received the column means of all nodes (threads) when it finalizes. (Proved for the helper threads of one host, and between hosts with one thread each if nothing arrives before the own PCA begins and no factor overtakes means that belong to it, which ordered channels guarantee up to three hosts. Found false between hosts in general: with two hosts and several threads the buffered factor is re-queued before the buffered means; with four hosts factors are relayed over intermediate nodes while means are not.)", "quantifier": "all cluster sizes and all delivery orders with FIFO channels", "why_tests_cant": "a race between different channels", "anchors": ["src/training/rotation/pca/mod.rs: send_to_main, finalize, Handler<PCAMeansMessage>"]}
{"id": "C19", "title": "Early reduction messages are not lost", "statement": "A factor that arrives at a host before the host begins its own PCA is still merged. (Found false for every number of threads and hosts: beginning the PCA throws the buffered message away, and from then on no continuation of the run ever finalizes.)", "quantifier": "all delivery orders", "why_tests_cant": "race", "anchors": ["src/training/rotation/pca/mod.rs: center_columns_decomposition, Handler<PCADecompositionMessage>, Handler<PCAHelperMessage>"]}
{"id": "C20", "title": "The merged factor has the Gram matrix of the globally centred data", "statement": "Given that each local QR step preserves the Gram matrix, the final triangular factor R satisfies R^T R = sum over all rows of (x-m)(x-m)^T with m the global column mean, for every split of the rows into non-empty partitions and every merge tree.", "quantifier": "all real data matrices, splits and merge orders", "why_tests_cant": "an algebraic identity over all real matrices", "anchors": ["src/training/rotation/pca/mod.rs: center_columns_decomposition, combine_remote_r, finalize", "src/training/rotation/pca/helper.rs"]}
{"id": "C21", "title": "The thread-level PCA gives every helper thread a part of the rows", "statement": "The rows are split into consecutive chunks, one per helper thread, covering every row exactly once; the step completes for every number of rows and threads. (Found false when the number of chunks is smaller than the number of threads, e.g. 9 rows on 4 threads: some helper never gets rows and the step waits forever; proved for rows > (threads-1)^2, together with the exact condition.)", "quantifier": "all row counts and thread counts", "why_tests_cant": "arithmetic over all pairs of sizes", "anchors": ["src/training/rotation/pca/mod.rs: helper_center_columns_decomposition", "src/training/rotation/pca/helper.rs"]}
{"id": "C22", "title": "The alignment matrix is a rotation that maps the reference direction to the third axis", "statement": "For every unit reference vector a that is not parallel to the third axis, the matrix computed for it is orthogonal with determinant 1 and maps a to (0,0,1).", "quantifier": "all real unit vectors with non-zero sine", "why_tests_cant": "identity over a continuum of inputs", "anchors": ["src/training/rotation/mod.rs: get_rotation_matrix"]}
{"id": "C23", "title": "Every point lies in an existing segment and the segment is the angular sector that contains it", "statement": "The segment id of a point is below rate, and it is k exactly if the angle of the point (in [0,2*pi)) lies in [2*pi*k/rate, 2*pi*(k+1)/rate).", "quantifier": "all real angles from -pi to pi and all positive rates", "why_tests_cant": "continuum of inputs", "anchors": ["src/data_store/utils.rs: get_segment_id", "src/utils/ndarray_extensions/mod.rs: to_polar", "src/data_store/mod.rs: add_points"]}
{"id": "C24", "title": "A transition is used exactly if it goes forward by at most half a turn", "statement": "A pair of consecutive points is recorded as transition exactly if the counter-clockwise distance from the first to the second segment is at least 1 and at most rate/2; of a transition and its reverse at least one is usable, both only if the distance is exactly half of an even rate.", "quantifier": "all rates and segment pairs", "why_tests_cant": "integer case analysis over all rates", "anchors": ["src/data_store/transition/mod.rs: TransitionMixin::{crosses_segments,has_valid_direction,segment_diff,raw_diff}", "src/training/segmentation/mod.rs: build_segments"]}
{"id": "C25", "title": "A transition is intersected with exactly the segment borders it crosses", "statement": "The segments for which intersections of a recorded transition are computed are exactly from+1, from+2, ..., to (cyclically), each once and in this order.", "quantifier": "all rates and all usable transitions", "why_tests_cant": "wrap-around arithmetic over all rates", "anchors": ["src/training/intersection_calculation/mod.rs: calculate_intersections"]}
{"id": "C26", "title": "Segmentation records all usable transitions of the point sequence in order", "statement": "On one machine the recorded transitions are exactly the usable consecutive pairs of the point sequence, in order, each carrying the id of its first point; ids are 0,1,2,...", "quantifier": "all point sequences", "why_tests_cant": "unbounded sequences", "anchors": ["src/training/segmentation/mod.rs: build_segments"]}
{"id": "C27", "title": "Distributed segmentation records the same transitions as a single machine", "statement": "If every node's partition contains a usable transition and first points arrive after the receiving node has segmented its own points, the union of the transitions over all nodes is exactly the set of usable consecutive pairs of the complete sequence, every transition being stored exactly at the owner of its start segment.", "quantifier": "all sequences, partitions and cluster sizes, all delivery orders of the exchange", "why_tests_cant": "distributed equality over all inputs", "anchors": ["src/training/segmentation/mod.rs: build_segments, try_send_inter_node_points, distribute_segments, Handler<SendFirstPointMessage>, Handler<SegmentMessage>"]}
{"id": "C28", "title": "The hand-over of the first point never blocks or aborts", "statement": "For every input and delivery order the hand-over of first points between neighbouring partitions completes. (Found false: a partition without usable transition never sends its first point and its predecessor waits forever; such a host aborts when the first point of the next partition arrives; a first point arriving early aborts the receiver.)", "quantifier": "all inputs and delivery orders", "why_tests_cant": "liveness over all inputs", "anchors": ["src/training/segmentation/mod.rs: try_send_inter_node_points, Handler<SendFirstPointMessage>"]}
{"id": "C29", "title": "Every exchange of buckets between all nodes delivers everything exactly once", "statement": "In the all-to-all exchanges (transitions, intersections, questions, answers, edges) every node processes the bucket of every other node exactly once, buckets that arrive before the node entered the phase are kept, and every node leaves the phase exactly once, after it processed all buckets; this holds for every delivery order.", "quantifier": "all cluster sizes and all delivery orders (no FIFO assumption), all start times", "why_tests_cant": "interleavings of unboundedly many nodes", "anchors": ["src/utils/direct_protocol.rs: DirectProtocol", "src/training/segmentation/mod.rs: Handler<SegmentMessage>", "src/training/intersection_calculation/mod.rs: Handler<IntersectionRotationMessage>", "src/training/transposition/mod.rs: Handler<TranspositionRotationMessage>"]}
{"id": "C30", "title": "Ring exchanges give every node the contribution of every other node exactly once", "statement": "In the ring exchanges (transition counts, node degrees, edge weights, partial scores), if no contribution reaches a node before the node started the exchange, every node accumulates the contribution of every other node exactly once and completes exactly once, for every FIFO schedule.", "quantifier": "all cluster sizes and all FIFO schedules", "why_tests_cant": "interleavings of unboundedly many nodes", "anchors": ["src/utils/rotation_protocol.rs: RotationProtocol", "src/training/scoring/weights.rs: Handler<NodeDegrees>, Handler<EdgeWeights>", "src/training/scoring/mod.rs: Handler<SubScores>"]}
{"id": "C31", "title": "Ring exchanges tolerate late starters", "statement": "The ring exchange is also correct if a node receives contributions before it starts. (Proved for two nodes; found false from three nodes on: buffered contributions are re-queued behind later ones, so the wrong contribution is not forwarded and a node misses one contribution and counts its own twice.)", "quantifier": "all schedules of actor mailboxes", "why_tests_cant": "race between mailbox order and start of the phase", "anchors": ["src/utils/rotation_protocol.rs: RotationProtocol::{received,resolve_buffer}"]}
{"id": "C32", "title": "Pools of helper workers answer completely and exactly once", "statement": "For every response order of the helper pool the requester sees each task's answer exactly once and proceeds exactly once, after all answers.", "quantifier": "all task counts and response orders", "why_tests_cant": "interleavings", "anchors": ["src/utils/helper_protocol.rs: HelperProtocol", "src/training/intersection_calculation/mod.rs: Handler<IntersectionResultMessage>", "src/training/node_estimation/multi_kde/actors/gaussian_kde.rs"]}
{"id": "C33", "title": "Questions between nodes cover exactly the node changes of the path", "statement": "For the point sequence of one machine, the questions collected for other nodes are exactly the consecutive pairs of the path through the graph whose two ends are owned by different nodes; asker and answerer are different and own the respective ends, every question is about a crossing that exists, none is lost or duplicated next to itself.", "quantifier": "all point sequences, rates and cluster sizes up to the rate", "why_tests_cant": "boundary arithmetic over all rates, cluster sizes and sequences", "anchors": ["src/data_store/node_questions/mod.rs: NodeQuestions::{ask,add_niq,get_wanted_segment}", "src/training/segmentation/mod.rs: find_splits, search_split_between_transitions, search_split_within_transition"]}
{"id": "C34", "title": "Crossing from one partition to the next keeps the path connected", "statement": "The distributed graph has the same edges as the graph of a single machine also at the border between two partitions. (Found false: if the pair of points spanning the border is itself usable, the step from this transition to the first transition of the next partition is never asked for and the edge is missing.)", "quantifier": "all sequences and partitions", "why_tests_cant": "distributed equality", "anchors": ["src/training/segmentation/mod.rs: Handler<SendFirstPointMessage>"]}
{"id": "C35", "title": "Nodes of one transition are connected in travel order", "statement": "For a usable transition whose crossed segments are listed in ascending segment number (the order in which the node index lists them), and a predecessor node, edge creation yields exactly the path predecessor -> first crossed -> ... -> last crossed in travel order, also when the transition wraps around segment 0, and continues from the last crossed node.", "quantifier": "all rates and usable transitions, all cluster labels", "why_tests_cant": "wrap-around case analysis over all rates", "anchors": ["src/training/edge_estimation/edges_orderer.rs: EdgesOrderer", "src/training/edge_estimation/mod.rs: connect_nodes"]}
{"id": "C36", "title": "Edge creation never aborts on the first transition", "statement": "Edge creation succeeds for every graph. (Found false: a first transition that crosses into the last segment and then into segment 0 aborts with 'Should be filled, we have a middle_node!'.)", "quantifier": "all rates and first transitions", "why_tests_cant": "corner case of unbounded family", "anchors": ["src/training/edge_estimation/edges_orderer.rs: EdgesOrderer::into_vec"]}
{"id": "C37", "title": "The edge list of a single machine is the walk of the series through the graph", "statement": "On one machine, if edge creation succeeds, the edges in storage order are exactly the consecutive pairs of the list of nodes visited in time and travel order; every edge starts where its predecessor ended.", "quantifier": "all node tables of usable transitions", "why_tests_cant": "unbounded sequences", "anchors": ["src/training/edge_estimation/mod.rs: connect_nodes, finalize_edge_estimation", "src/data_store/mod.rs: sort_edges"]}
{"id": "C38", "title": "Transposition moves every edge to the owner of its time stamp", "statement": "After the exchange no edge is lost or duplicated, every edge is stored at the node whose partition contains the time stamp of its target, and every node's list is sorted by time.", "quantifier": "all edge multisets, cluster sizes and delivery orders", "why_tests_cant": "distributed multiset equality over all interleavings", "anchors": ["src/training/transposition/mod.rs: assign_edges_to_neighbours, Handler<TranspositionRotationMessage>, transpose_finalize"]}
{"id": "C39", "title": "Edge weights are the multiplicities of edges in the whole graph", "statement": "The weight used for an edge equals the number of edges of the complete graph with the same end nodes (segment and cluster label), however the edges are distributed over nodes.", "quantifier": "all edge lists and distributions", "why_tests_cant": "multiset property", "anchors": ["src/training/scoring/weights.rs: calculate_edge_weight, Handler<EdgeWeights>"]}
{"id": "C40", "title": "Node degrees count distinct incident edges and are never zero for a scored edge", "statement": "The degree of a node equals the number of distinct edges leaving it plus the number entering it; the degree of the source of every edge is at least 1, so scoring never underflows; summing the degrees of the nodes gives the global degree if equal edges start on the same machine.", "quantifier": "all edge lists and distributions by source owner", "why_tests_cant": "multiset property", "anchors": ["src/training/scoring/weights.rs: calculate_node_degrees, Handler<NodeDegrees>", "src/training/scoring/helper.rs: score_p_degree"]}
{"id": "C41", "title": "The time index of edges is the cumulative edge count", "statement": "Entry t of the time index is the number of edges whose target time stamp is at most t (relative to the partition), for every t below the number of points; the index is non-decreasing and has one entry per point (one less on the last node).", "quantifier": "all sorted edge lists whose largest time stamp is positive", "why_tests_cant": "loop with gaps and a sentinel", "anchors": ["src/training/scoring/weights.rs: count_edges_in_time"]}
{"id": "C42", "title": "Scoring never reads outside the edge list", "statement": "For every time index as in C41 and every query length up to its length, all windows and slices used for scoring are in bounds.", "quantifier": "all graphs and query lengths", "why_tests_cant": "bounds over all inputs", "anchors": ["src/training/scoring/helper.rs: score_p_degree, Handler<ScoringHelperInstruction>", "src/training/scoring/mod.rs: parallel_score"]}
{"id": "C43", "title": "The score does not depend on the number of threads or the order of their answers", "statement": "For every number of threads up to the number of windows and every order of the thread responses, the assembled score vector equals the one computed sequentially, and scoring is finalized exactly once.", "quantifier": "all graphs, thread counts and response orders", "why_tests_cant": "concurrency", "anchors": ["src/training/scoring/mod.rs: parallel_score, Handler<ScoringHelperResponse>, fill_up_first_missing_points"]}
{"id": "C44", "title": "Scoring terminates for every number of threads", "statement": "Scoring completes also if there are fewer windows than threads. (Found false: with fewer windows than threads all parts claim to start at 0 and, depending on the order of answers, the run waits forever.)", "quantifier": "all thread counts and response orders", "why_tests_cant": "race", "anchors": ["src/training/scoring/mod.rs: parallel_score, Handler<ScoringHelperResponse>"]}
{"id": "C45", "title": "The result has one score per window", "statement": "The length of the returned score vector is n - P - q + 1 for n rows, pattern length P and query length q, on one machine and on a cluster.", "quantifier": "all sizes", "why_tests_cant": "size arithmetic over all inputs and cluster sizes", "anchors": ["src/training/scoring/weights.rs: count_edges_in_time", "src/training/scoring/overlap.rs", "src/training/scoring/mod.rs: parallel_score, finalize_scoring"]}
{"id": "C46", "title": "Scores are normalized to [0,1]", "statement": "If not all raw scores are equal, the returned scores lie in [0,1], the smallest is 0, the largest is 1 and the order of the raw scores is preserved, in IEEE single precision. (If all raw scores are equal the result is not a number - recorded as a finding.)", "quantifier": "all vectors of finite single precision scores without overflow of the range", "why_tests_cant": "floating point over all inputs", "anchors": ["src/training/scoring/mod.rs: normalize_score"]}
{"id": "C47", "title": "Kernel density peaks are exactly the strict local maxima", "statement": "A grid position is reported as cluster centre exactly if its density is strictly greater than that of both neighbours; the first and last grid positions are never reported.", "quantifier": "all density vectors", "why_tests_cant": "all vectors of any length", "anchors": ["src/training/node_estimation/multi_kde/mod.rs: find_peak_index"]}
{"id": "C48", "title": "Every value is assigned to a nearest cluster centre", "statement": "The centre assigned to a value minimises the distance to the value over all centres, the first of several equally near ones.", "quantifier": "all values and non-empty centre lists", "why_tests_cant": "all vectors", "anchors": ["src/training/node_estimation/multi_kde/mod.rs: assign_closest_peak"]}
{"id": "C49", "title": "Cluster labels identify centres", "statement": "Two points get the same label exactly if their centres are equal in all dimensions, labels are 0..k-1 in order of first occurrence, and the centre stored for a label is the centre of its points.", "quantifier": "all centre matrices", "why_tests_cant": "all vectors", "anchors": ["src/training/node_estimation/multi_kde/mod.rs: extract_labels_from_centers"]}
{"id": "C50", "title": "Splitting density evaluation over threads does not change the sum", "statement": "The ranges handed to the threads tile all points exactly once for every number of threads, and the summed result over exact numbers is independent of thread count and answer order.", "quantifier": "all point counts, positive thread counts and answer orders", "why_tests_cant": "arithmetic and permutation", "anchors": ["src/training/node_estimation/multi_kde/actors/gaussian_kde.rs: send_tasks, Handler<EstimatorResponse>"]}
{"id": "C51", "title": "Intersections lie on the transition and on the segment border", "statement": "The point computed for a transition and a segment border lies on the line through the two points of the transition and on the border plane, whenever the linear system has a solution.", "quantifier": "all real points in any dimension", "why_tests_cant": "continuum", "anchors": ["src/utils/geometry.rs: line_plane_intersection"]}
{"id": "C52", "title": "Overlap exchange gives each node the time index of its successor's first windows", "statement": "After the overlap exchange each non-last node's time index is extended by exactly query-length - 1 entries that continue its own cumulative count, the exchange runs from the last node to the first and every node proceeds exactly once.", "quantifier": "all cluster sizes and graphs whose partitions have at least query-length entries", "why_tests_cant": "distributed chain over all cluster sizes", "anchors": ["src/training/scoring/overlap.rs", "src/training/scoring/mod.rs: Scorer"]}
{"id": "C53", "title": "Self-correction on a cluster decides as on a single machine", "statement": "The decision to mirror all points depends only on the number of usable and unusable transitions of the complete series. (Found false: on a cluster the usable transitions that stay on their node are counted twice.)", "quantifier": "all sequences and distributions", "why_tests_cant": "distributed equality", "anchors": ["src/training/segmentation/mod.rs: self_correction, try_self_correction, Handler<TransitionCountMessage>"]}
{"id": "C54", "title": "Mirroring reverses the direction of travel", "statement": "Mirroring all points turns the angle t into pi - t; for an even rate a point strictly inside segment s moves to segment (rate/2 - 1 - s) mod rate, so forward distances become backward distances; mirroring twice restores the points.", "quantifier": "all angles and even rates", "why_tests_cant": "continuum", "anchors": ["src/data_store/point.rs: mirror", "src/data_store/mod.rs: mirror_points"]}
{"id": "C55", "title": "The clustering methods offered by the Python wrapper are accepted", "statement": "Every clustering name the wrapper offers is accepted by the engine. (Found false: 'meanshift' is offered but rejected, which aborts.)", "quantifier": "all offered names", "why_tests_cant": "interface agreement across languages", "anchors": ["s2gpp/__init__.py: Clustering", "src/python_binding.rs", "src/training/node_estimation/mod.rs: Clustering::from_str"]}
{"id": "C56", "title": "Training is only started with members that are still connected", "statement": "Whenever a host starts training, every peer in the peer table it hands to the analysis is a member that joined and has not left. (Found false: the main host ignores the notification that a member left, so it still counts and numbers it.)", "quantifier": "all sequences of join/leave events", "why_tests_cant": "history", "anchors": ["src/cluster_listener.rs: Handler<ClusterLog>"]}
{"id": "C57", "title": "The reference data set interpolates between the column minima and maxima", "statement": "The reference data set has 100 points; point i is constant along the embedding, and each of its pattern-length - latent values in a column is latent * (min + i * (max - min) / 99) for the global minimum and maximum of that column.", "quantifier": "all column minima/maxima, pattern lengths and latent lengths", "why_tests_cant": "continuum and all sizes", "anchors": ["src/data_manager/reference_dataset_builder/mod.rs", "src/utils/ndarray_extensions/mod.rs: linspace"]}
{"id": "C58", "title": "A host processes its partition exactly once, whatever the message order", "statement": "Whatever the order in which the peer table, the partition and the two global statistics reach a host, the statistics are computed at most once and preprocessing starts at most once; when no message is left both have happened exactly once, on the host's own partition.", "quantifier": "all interleavings of message arrival and handling", "why_tests_cant": "schedules", "anchors": ["src/data_manager/mod.rs: Handler<LoadDataMessage>, Handler<DataPartitionMessage>, Handler<MinMaxDoneMessage>, Handler<StdDoneMessage>, datastats_finished"]}
{"id": "C59", "title": "Every channel of a multi-channel series gets its PCA", "statement": "With several channels the reduction is repeated for each channel and finalizes once per channel, for every delivery order. (Proved on one host, and on several as long as no host handles a factor or means of a channel it has not begun. Found false without that condition: a host that finishes the first channel early sends its factor for the second channel before the main host has begun it; the factor is thrown away and the second reduction never finishes, even with FIFO channels.)", "quantifier": "all channel counts and FIFO delivery orders", "why_tests_cant": "race between rounds of a protocol", "anchors": ["src/training/rotation/mod.rs: run_pca, Handler<PCADoneMessage>", "src/training/rotation/pca/mod.rs: PCA::clear"]}
{"id": "C60", "title": "The sign of every principal component is normalised", "statement": "The normalised component is the computed component or its negation, and its first entry is never negative, for every component vector.", "quantifier": "all real vectors", "why_tests_cant": "continuum of inputs", "anchors": ["src/training/rotation/pca/mod.rs: normalize"]}
{"id": "C61", "title": "A point's segment is the angle of its rotated embedding", "statement": "On a one-channel series the segment of a point is the sector of the first two coordinates of its rotated three-dimensional embedding. With several channels it is the sector of the pair (first coordinate of channel 0, first coordinate of channel 1); the second coordinates do not matter. Points are numbered consecutively from the offset of the host and keep their coordinates.", "quantifier": "every number of channels, every matrix and every row", "why_tests_cant": "needs all real coordinates", "anchors": ["src/training/rotation/mod.rs: apply_rotation_matrix", "src/data_store/mod.rs: add_points_with_offset", "src/data_store/point.rs: new_calculate_segment"]}
{"id": "C62", "title": "Every host applies the alignment matrix exactly once", "statement": "Whatever the number of channels and the order in which analyses finish and matrices arrive, no host applies the matrix before its last analysis is finished, none applies it twice, and when nothing is left to do every host has applied it once and proceeded once; no run is infinite.", "quantifier": "every number of hosts and channels, every delivery order", "why_tests_cant": "ranges over all schedules", "anchors": ["src/training/rotation/mod.rs: Handler<PCADoneMessage>, Handler<RotationMatrixMessage>, broadcast_rotation_matrix"]}
{"id": "C63", "title": "A border is crossed between the two points and on the right side of the origin", "statement": "The crossing computed for a usable transition and a border it passes lies between its two points and on the ray of that border, so the stored distance identifies it. (Proved for transitions that advance by less than half of the segments; found false for exactly half: the computed crossing can be on the opposite side of the origin, and only its distance is stored.)", "quantifier": "every dimension, rate, pair of points and border", "why_tests_cant": "needs all real coordinates", "anchors": ["src/training/intersection_calculation/mod.rs: calculate_intersections", "src/training/intersection_calculation/helper.rs: work", "src/utils/geometry.rs: line_plane_intersection"]}
{"id": "C64", "title": "Computing crossings never aborts", "statement": "Every usable transition has a crossing with every border it passes. (Proved for transitions that advance by less than half of the segments, in every dimension; found false for exactly half: from (-1,0) to (1,0) the transition is parallel to border 0, the matrix is singular and the run aborts.)", "quantifier": "every dimension, rate, pair of points and border", "why_tests_cant": "needs all real coordinates", "anchors": ["src/training/intersection_calculation/helper.rs: work", "src/utils/geometry.rs: line_plane_intersection"]}
{"id": "C65", "title": "The end of the weight initialisation is announced exactly once", "statement": "On every machine of a cluster, the two ring exchanges that collect node degrees and edge weights run at the same time; for every interleaving of their messages the scoring stage is announced exactly once, with the last message of the slower ring.", "quantifier": "all cluster sizes and all interleavings of the messages of both rings", "why_tests_cant": "interleavings of unboundedly many messages", "anchors": ["src/training/scoring/weights.rs: init_done, Handler<NodeDegrees>, Handler<EdgeWeights>"]}
{"id": "C66", "title": "Each host creates exactly the edges that leave its own nodes", "statement": "On a cluster, if every host holds the nodes of its segments and got the answers to its questions, the edge list of host h is exactly the list of steps of the global walk that start in a segment of h, in walk order; together the hosts hold every step exactly once.", "quantifier": "all rates, cluster sizes, point sequences, cluster labels, storage orders within a segment", "why_tests_cant": "distributed walk over all inputs", "anchors": ["src/training/edge_estimation/mod.rs: connect_nodes", "src/data_store/mod.rs: get_nodes_by_point_id", "src/training/node_estimation/mod.rs: next_foreign_node"]}
{"id": "C67", "title": "Every step of the series between two machines reaches the machine that stores it", "statement": "When the machines of a cluster exchange questions about crossings and answers, then for every order in which the messages arrive every question is answered without an abort, and every machine learns, for each of its crossings after which the series continues on another machine, exactly the node where it continues; together the machines hold exactly the steps of the walk of the whole series, each once.", "quantifier": "every cluster size, rate, partitioning of the series, node labelling and every delivery order of questions and answers", "why_tests_cant": "It relates three distributed phases (segmentation with hand-over, questions, answers) for every partitioning and message order; a test fixes one of each.", "anchors": ["src/training/node_estimation/mod.rs: ask_next, search_for_asked_nodes, answer_next, take_in_answers, Handler<AskForForeignNodes>, Handler<ForeignNodesAnswer>", "src/training/segmentation/mod.rs", "src/training/edge_estimation/mod.rs"]}
{"id": "C68", "title": "Every crossing becomes exactly one node", "statement": "After clustering, every crossing of the series through a segment is represented by exactly one node, stored on the machine that owns the segment, carrying the label the clustering gave to its row (label 0 if it is alone in its segment); if the clustering fails for one segment, the run aborts instead of leaving nodes out.", "quantifier": "every cluster size, rate, assignment of crossings to machines in any order, and every clustering function", "why_tests_cant": "The loop over segments starts at an offset and runs to the global end on every machine; that nothing is left out or doubled must hold for every size, not for the tested one.", "anchors": ["src/training/node_estimation/mod.rs: estimate_nodes, Handler<ClusteringResponse>", "src/data_store/index.rs"]}
{"id": "C70", "title": "A cluster returns the scores a single machine returns", "statement": "After the exchange of overlaps and partial scores every machine of a cluster holds the same vector of raw scores, it is the one a single machine computes from the same edges, and no machine aborts. (Found false: windows near the end of a partition can lack the edge that follows them; if the first window lacks it the cluster aborts; edges with equal time stamps are ordered by arrival, which changes scores; a ring overtaken by a late host misses a part and aborts.)", "quantifier": "all cluster sizes, distributions of edges, thread counts, delivery orders", "why_tests_cant": "distributed equality over all interleavings", "anchors": ["src/training/scoring/overlap.rs", "src/training/scoring/mod.rs: finalize_parallel_score, Handler<SubScores>, finalize_scoring", "src/training/transposition/mod.rs: Handler<TranspositionRotationMessage>"]}
{"id": "C71", "title": "A window is scored by the edges of its time range and the one that follows", "statement": "The score of the window starting at point i is computed from exactly the edges whose time stamp is after i and at most i+q-1, plus one edge with the next larger time stamp, if there is one.", "quantifier": "all edge lists sorted by time, query lengths and windows", "why_tests_cant": "index arithmetic over all inputs", "anchors": ["src/training/scoring/helper.rs: Handler<ScoringHelperInstruction>", "src/training/scoring/weights.rs: count_edges_in_time"]}
{"id": "C69", "title": "Clustering finite crossings does not abort", "statement": "For every segment with at least two crossings with finite coordinates the clustering returns labels. (Found false: two crossings with an equal coordinate, or any number of crossings that share it, have variance 0, whose inversion aborts the analysis.)", "quantifier": "all crossings, thread counts", "why_tests_cant": "continuum of inputs; degenerate inputs are of measure zero and missed by sampling", "anchors": ["src/training/node_estimation/multi_kde/actors/gaussian_kde.rs: compute_covariance"]}
{"id": "C72", "title": "The raw score of a window is the negated average of its summed weights", "statement": "The raw score of a window is minus the sum of weight times degree minus one over its edges divided by the number of these edges, rounded once as long as the sum is below 2^24; it is finite and never positive.", "quantifier": "all edge weights, degrees and query lengths", "why_tests_cant": "floating point over all inputs", "anchors": ["src/training/scoring/helper.rs"]}
{"id": "C73", "title": "Clustering does not depend on the timing of its worker threads", "statement": "For given crossings and number of threads the labels do not depend on the order in which worker threads answer. (Found false in single precision for three or more threads: the order of additions decides whether a peak exists; true for one and two threads and in exact arithmetic.)", "quantifier": "all schedules, thread counts, columns", "why_tests_cant": "interleavings times floating point", "anchors": ["src/training/node_estimation/multi_kde/actors/gaussian_kde.rs: Handler<EstimatorResponse>"]}
{"id": "C74", "title": "The Python wrapper hands every argument to the engine", "statement": "Whatever arguments the estimator is given, the engine runs with the pattern length, latent, query length, rate, thread count, clustering and self correction the user asked for, or with the documented defaults where they were left out; the default number of threads is at least one and uses the machine; hosts of a cluster started with the same arguments run with the same parameters.", "quantifier": "all argument combinations, all processor counts, all host addresses", "why_tests_cant": "Arguments travel by position through two languages; a swap of two integers keeps types and passes most tests, and the default depends on the machine the test runs on.", "anchors": ["s2gpp/__init__.py: Series2GraphPP.__init__, fit_predict, DistributedSeries2GraphPP.fit_predict", "src/python_binding.rs: s2gpp_local_array, s2gpp_distributed_main, s2gpp_distributed_sub", "src/parameters.rs: Parameters"]}
{"id": "C75", "title": "The contribution of a dimension is the rarity of the coordinates visited", "statement": "With explainability the contribution of a dimension to a window is the mean, over the nodes of the window, of the share of the crossings of the node's segment that have another centre coordinate in this dimension; it lies between 0 and 1 whatever the order in which sums are formed, it is 0 exactly if all crossings of the segments visited agree in this dimension, and there is one row per window of the score vector.", "quantifier": "all clusterings of all segments, all edge lists, all query lengths, all orders of summation", "why_tests_cant": "rounding and summation order over unbounded inputs", "anchors": ["src/training/anomaly_contribution/mod.rs: calculate_dimension_uniqueness, record_contributions, query_node_score", "src/training/scoring/mod.rs: build_anomaly_contribution_score", "src/training/node_estimation/mod.rs: Handler<ClusteringResponse<f32>>"]}
{"id": "C76", "title": "Explainability never aborts an analysis", "statement": "For every series that can be scored, switching explainability on yields the contribution file with one row per window. (Found false: the program aborts exactly if in the segments visited by the first window all crossings agree in every dimension, for instance for a clean series that passes every segment at one place.)", "quantifier": "all clusterings, edge lists and query lengths", "why_tests_cant": "a rare but legal input", "anchors": ["src/training/scoring/mod.rs: Handler<QueryClusterContributionResponse>"]}
{"id": "C77", "title": "Every row of the contribution file describes its own window", "statement": "Row i of the contribution file is the contribution of window i minus the median contribution of each dimension. (Found false: rows that sum up to zero, before or after the subtraction, are replaced by the row before, so the file can report the same excess for every window; and values are only compared up to 1/80, so that another value of the same interval is subtracted.)", "quantifier": "all contribution tables", "why_tests_cant": "all inputs", "anchors": ["src/training/scoring/mod.rs: Handler<QueryClusterContributionResponse>", "src/utils/float_approx.rs: FloatApprox::approximate, Ord"]}
{"id": "C78", "title": "The main host always obtains the complete scores", "statement": "On a cluster of n hosts in which no host is lost, every run ends with the main host having taken in the partial scores of every other host and having written its result, and all processes ended. (Found false from three hosts on: a host leaves as soon as it has its own result, and a sub host that sees somebody leave stops at once, even if it still has to pass partial scores on; the main host then waits for ever.)", "quantifier": "all cluster sizes, all interleavings of the exchange of the partial scores, of the ends of processes and of the notices that somebody left", "why_tests_cant": "a race between independent hosts at shutdown", "anchors": ["src/training/mod.rs: Handler<ScoringDone>", "src/cluster_listener.rs: Handler<ClusterLog> (MemberLeft), Actor::stopped", "src/training/scoring/mod.rs: Handler<SubScores>, finalize_parallel_score"]}
{"id": "C79", "title": "The loss of a host ends the analysis", "statement": "If a host of the cluster is lost during the analysis, all remaining processes end, so that the user sees that the analysis failed. (Found false: sub hosts stop, but the main host ignores the notice and waits for ever for the contribution of the lost host.)", "quantifier": "all cluster sizes, all points in time at which a host is lost before contributing, all continuations", "why_tests_cant": "crash points of another process", "anchors": ["src/cluster_listener.rs: Handler<ClusterLog> (MemberLeft)", "src/training/mod.rs: Handler<ScoringDone>"]}
{"id": "C80", "title": "Every crossing of the series reaches the machine that owns its segment, exactly once", "statement": "After the machines of a cluster have computed the crossings of their transitions and exchanged them, every machine holds exactly the crossings of the whole series through its own segments, each once and with the coordinates computed for it, whatever the order in which messages arrive and are iterated; a single machine holds all crossings. If one crossing cannot be computed its machine stops, and then no machine ever leaves this stage.", "quantifier": "every cluster size, rate, assignment of transitions, delivery order and map iteration order", "why_tests_cant": "distributed exchange; hash map order and message order vary from run to run", "anchors": ["src/training/intersection_calculation/mod.rs: calculate_intersections, parallel_intersection_tasks, rotate_foreign_assignments, assign_received_intersection, Handler<IntersectionRotationMessage>", "src/training/intersection_calculation/helper.rs: Handler<IntersectionTaskMessage>"]}
{"id": "C81", "title": "The outcome of an analysis on one machine is determined by the rotated points, from end to end", "statement": "Given the rotated points, the computed crossings and the clustering of each segment, an analysis on one machine has one possible outcome for every number of threads and every order in which they answer: the edges of its graph are the steps of the walk of the (possibly mirrored) series through the labelled crossings, the raw scores are those of the windows of this walk, exactly one vector is delivered with one entry per window, and its entries are all numbers from 0 to 1 or, if the raw scores are equal, all NaN. It aborts exactly if the first followed transition crosses into the last segment and then into segment 0. A series without usable transitions after its first point yields NaN only.", "quantifier": "every list of rotated points, rate, query length, thread count and order of responses; every crossing computation and clustering that succeeds", "why_tests_cant": "composes seven stages; the outcome must hold for all thread schedules and series", "anchors": ["src/training/mod.rs: Handler<RotationDoneMessage> .. Handler<ScoringDone>", "src/training/segmentation/mod.rs: segment, self_correction", "src/training/intersection_calculation/mod.rs: calculate_intersections", "src/training/node_estimation/mod.rs: estimate_nodes", "src/training/edge_estimation/mod.rs: estimate_edges", "src/training/scoring/mod.rs: init_scoring, score, parallel_score, finalize_parallel_score, normalize_score"]}
{"id": "C82", "title": "Self-correction takes one decision on the whole cluster and leaves one segmentation", "statement": "On a cluster with self-correction every host decides alike whether the points are mirrored, every host distributes its transitions exactly once, and in the end the hosts together hold the usable pairs of consecutive points of the whole series, mirrored on all hosts or on none, each pair at the host that owns its start segment.", "quantifier": "all series and partitions, numbers of hosts, orders of starting, delivery and handling of the count and first-point messages", "why_tests_cant": "Whether a first point overtakes the last count depends on the timing of three hosts; tests run one host, or two that start together.", "anchors": ["src/training/segmentation/mod.rs: self_correction, try_self_correction, Handler<TransitionCountMessage>, Handler<SendFirstPointMessage>", "src/utils/rotation_protocol.rs: RotationProtocol"]}
{"id": "C83", "title": "A cluster analysis gives every host the scores one machine would give", "statement": "From the rotated points on, no host of a cluster aborts and every host ends with the same scores: those of the windows of one graph whose edges are the steps of the walk of the whole series through the labelled crossings, which is what one machine computes. The scores do not depend on timing.", "quantifier": "all series of at least one usable transition per host with regular borders, numbers of hosts and threads, query lengths, and all orders of start, delivery and handling in every stage", "why_tests_cant": "Seven distributed stages feed each other; every one of them has its own schedules, and the combinations cannot be enumerated. Tests run one or two hosts in one process with one timing and compare with a stored vector.", "anchors": ["src/training/mod.rs: Handler<RotationDoneMessage> to Handler<ScoringDone>", "src/training/segmentation/mod.rs", "src/training/intersection_calculation/mod.rs", "src/training/node_estimation/mod.rs", "src/training/edge_estimation/mod.rs", "src/training/transposition/mod.rs", "src/training/scoring/mod.rs"]}
{"id": "C84", "title": "The principal components are those of the whole series, whatever the cluster", "statement": "The column means and the three principal components by which every host reduces its windows depend only on the windows of the whole series: not on the number of hosts and threads, the order of messages or the numerical library's choices. The components are three orthogonal directions of length 1, each with the largest variance that is left, and changing the units of the series (one positive factor for all columns, an offset per column) does not change them.", "quantifier": "all series, partitions among hosts and threads, message orders and correct factorisations; all factors and offsets", "why_tests_cant": "A statement about all factorisations a library may return and all schedules; tests compare one run with a stored matrix up to sign.", "anchors": ["src/training/rotation/pca/mod.rs: finalize, normalize", "src/training/rotation/mod.rs: reduce"]}
{"id": "C85", "title": "The rotated points of a cluster are those of one machine", "statement": "Embedding, reducing by principal components and rotating the series on several hosts gives, host after host, the same numbered points with the same segments as one machine with all rows gives, whatever the numbers of hosts and threads, the orders of messages and the numerical library's choices; no host aborts.", "quantifier": "all series, numbers of hosts, threads, message orders and correct factorisations", "why_tests_cant": "It composes the partition, the embedding, the analysis and the alignment over all schedules and factorisations; tests run each stage on one literal.", "anchors": ["src/data_manager/phase_spacer/mod.rs: build", "src/data_manager/reference_dataset_builder/mod.rs: build", "src/training/rotation/mod.rs: run_pca, reduce, get_rotation_matrix, apply_rotation_matrix", "src/data_store/mod.rs: add_points_with_offset"]}
{"id": "C86", "title": "Crossings are grouped by the nearest peaks of their density", "statement": "The crossings of the series with a segment, if there are several, are grouped per channel by the nearest peak of the Gaussian kernel density of their distances from the centre (Scott's bandwidth, 250 positions from a tenth below to a tenth above the data), in exact arithmetic: two crossings become the same node exactly if their nearest peaks coincide in every channel. The grouping depends neither on the order of the crossings, the number of threads and the order of their answers, nor on the units of the distances; no clustering aborts; the centre of a crossing is a peak of the density.", "quantifier": "all lists of crossings with any number of channels, all orders, numbers of threads, message orders, factors and offsets", "why_tests_cant": "Density and peaks are compared with an independent definition for all inputs; tests compare labels of one data set.", "anchors": ["src/training/node_estimation/mod.rs: estimate_nodes", "src/training/node_estimation/multi_kde/mod.rs: find_peak_values, find_peak_index, assign_closest_peak_values, extract_labels_from_centers", "src/training/node_estimation/multi_kde/actors/gaussian_kde.rs: estimate, compute_covariance, scotts_factor", "src/training/node_estimation/multi_kde/actors/helper.rs: evaluate"]}
{"id": "C87", "title": "Where the series crosses a border is a matter of two points", "statement": "Between two consecutive points the crossing with the border of a segment is where their straight line meets the border's plane, and the recorded number per channel is its distance from the axis. It does not depend on the host that computes it, on which other transitions that host holds (they determine the points that span the plane), on the linear algebra library, and it scales with the units; the computation aborts exactly if the line is parallel to the border, which no line is that goes less than half a turn.", "quantifier": "all points of any number of channels, segments, sets of transitions held, correct inverses, factors", "why_tests_cant": "The plane is spanned by points computed from everything the host holds; that none of this matters is an algebraic fact over all inputs.", "anchors": ["src/training/intersection_calculation/mod.rs: calculate_intersections, parallel_intersection_tasks", "src/training/intersection_calculation/helper.rs: work", "src/utils/geometry.rs: line_plane_intersection"]}
{"id": "C88", "title": "A cluster gives the scores of one machine, from the rows to the scores", "statement": "For a series whose principal components are determined and whose points are distributed as the stages require, every complete execution on a cluster of any size, with any numbers of threads, orders of messages and linear algebra libraries, gives every host exactly the scores that every complete execution on one machine gives; neither aborts.", "quantifier": "all series, numbers of hosts and threads, schedules of all stages, correct QR, SVD and inverse functions", "why_tests_cant": "Needs the composition of all stages for all schedules and sizes; a test compares one schedule on one series.", "anchors": ["src/training/mod.rs: Training", "src/training/rotation/mod.rs: Rotator", "src/training/intersection_calculation/mod.rs: IntersectionCalculator", "src/training/node_estimation/mod.rs: estimate_nodes", "src/training/edge_estimation/mod.rs: EdgeEstimator", "src/training/transposition/mod.rs: Transposer", "src/training/scoring/mod.rs: Scorer"]}
{"id": "C89", "title": "The scores do not depend on the units of the measurements", "statement": "If every measurement of every channel is converted with one positive factor and an offset per channel (degrees Celsius to degrees Fahrenheit), one machine computes exactly the same scores in every execution, or aborts in the same way, with or without self-correction and whatever linear algebra library is used, provided the principal components of the original series are determined.", "quantifier": "all series, numbers of channels, factors, offsets, settings, correct QR, SVD and inverse functions", "why_tests_cant": "A relation between two runs of the whole analysis for all inputs; a test compares one pair of series and cannot tell an invariant from a coincidence.", "anchors": ["src/data_manager/phase_spacer/mod.rs: PhaseSpacer::build", "src/training/rotation/mod.rs: Rotator", "src/training/rotation/pca/mod.rs: PCA", "src/data_store/utils.rs: get_segment_id", "src/training/intersection_calculation/mod.rs: IntersectionCalculator", "src/training/node_estimation/multi_kde/mod.rs: MultiKDE"]}
{"id": "C90", "title": "A cluster with self-correction computes the scores of one machine", "statement": "With self-correction, in every execution on a cluster all hosts take the same decision whether to mirror their points, each distributes its transitions once, none aborts, and all end with the same scores: those of one machine with self-correction, if that machine takes the same decision and messages with first points do not overtake the decision.", "quantifier": "all series, cluster sizes, thread counts, message orders (subject to the proviso of C82), correct QR, SVD and inverse functions", "why_tests_cant": "The decision ring, the border points and the transitions of the first and second pass interleave in unboundedly many ways; a test sees one.", "anchors": ["src/training/segmentation/mod.rs: Segmenter, Handler<TransitionCountMessage>, Handler<SendFirstPointMessage>", "src/data_store/mod.rs: DataStore::mirror_points", "src/data_store/point.rs: Point::mirror", "src/training/mod.rs: Training"]}
{"id": "C91", "title": "Every host starts preprocessing once, with its rows and the same statistics", "statement": "When the training has been started on all hosts of a cluster and the reader can distribute the file, then in every order of arrival of the messages no host aborts, the exchange ends after boundedly many messages, every host starts preprocessing exactly once, and then has exactly its rows of the selected columns, the minimum and maximum of every column of the whole file, the number of rows of the file and the same standard deviations as all other hosts.", "quantifier": "all files, cluster sizes, column selections, orders of arrival on the network", "why_tests_cant": "Partitions, peer tables, partial statistics and answers of all hosts interleave in unboundedly many ways; partitions may arrive before the receiver knows its peers.", "anchors": ["src/data_manager/mod.rs: DataManager, Handler<LoadDataMessage>, Handler<DataPartitionMessage>, datastats_finished", "src/data_manager/stats_collector/minmax.rs", "src/data_manager/stats_collector/std.rs", "src/data_manager/data_reader/mod.rs: read_csv"]}
{"id": "C92", "title": "An array given by the caller is analysed as it is", "statement": "Data handed over as an array is analysed by that process alone: all rows and columns are taken, the statistics are the extremes and the sample standard deviations of its columns, and preprocessing starts exactly once.", "quantifier": "all arrays with at least two rows, all parameters", "why_tests_cant": "A unit test has one array and the default parameters; the cluster size among the parameters decides whether the statistics are ever complete.", "anchors": ["src/interface/mod.rs: actor_fit", "src/training/mod.rs: Handler<StartTrainingMessage>", "src/data_manager/mod.rs: Handler<LocalReadDataMessage>, calculate_datastats", "src/data_manager/stats_collector/minmax.rs", "src/data_manager/stats_collector/std.rs"]}
{"id": "C93", "title": "The caller of the array interface receives the scores", "statement": "The value the caller of the array interface receives is the computed score, however often and in whatever order the runtime polls the channel in between, and nothing else is ever received; before the score is there the caller waits.", "quantifier": "all scores, all sequences of polls", "why_tests_cant": "The runtime decides when to poll; a test sees one sequence.", "anchors": ["src/interface/sink.rs: MySink", "src/interface/mod.rs: actor_fit", "src/training/mod.rs: Handler<ScoringDone>"]}
{"id": "C94", "title": "The scores of a file do not depend on how many machines analyse it", "statement": "A file analysed by a cluster and the same file, or its numbers as an array, analysed on one machine give the same scores on every host, whatever the order of messages in any stage, from reading the file to assembling the result, with and without self-correction.", "quantifier": "all files, cluster sizes, thread counts, column selections, message orders in all stages, correct QR, SVD and inverse functions", "why_tests_cant": "End-to-end agreement over all interleavings of all stages; a test sees one execution of one file.", "anchors": ["src/data_manager/mod.rs: DataManager", "src/interface/mod.rs: actor_fit", "src/training/mod.rs: Training", "src/training/rotation/mod.rs", "src/training/scoring/mod.rs"]}
{"id": "C95", "title": "When the analysis ends normally the score file is complete", "statement": "If a score file is asked for and the analysis ends normally, the file holds the text of every score, one per line, in order, and no other file than the named ones is touched; if a file cannot be written completely, the caller does not get an answer as if it was.", "quantifier": "all score lists, number formats, buffer capacities, disks and quotas, file names, with and without the table of contributions", "why_tests_cant": "Depends on the exact number of bytes left on the disk and on the buffer capacity; a test has enough space.", "anchors": ["src/training/scoring/mod.rs: finalize_scoring, output_score, Handler<QueryClusterContributionResponse>", "src/training/mod.rs: Handler<ScoringDone>"]}
{"id": "C96", "title": "A started program gets its data or says why not", "statement": "However the program or the library is started, it either gets the data it is to analyse and preprocesses it once on every host, or it ends with an error.", "quantifier": "all roles, addresses, data paths, cluster sizes and explainability settings, all files and schedules", "why_tests_cant": "A test starts the program with one sensible configuration; a process that waits for ever is no test result.", "anchors": ["src/lib.rs: s2gpp, s2gpp_async", "src/bin/s2gpp.rs: main", "src/parameters.rs: Role", "src/data_manager/mod.rs: Handler<LoadDataMessage>"]}
{"id": "C97", "title": "Every host of a cluster writes the score file one machine writes", "statement": "Hosts that find each other in any order, one of them given a file, write score files that are equal, byte for byte, to the score file that one machine writes for the same file, and to the one written for the same numbers handed over as an array.", "quantifier": "all addresses and orders of joining, all files, all schedules of every stage, all principal components, disks with enough space and number formats", "why_tests_cant": "Needs every interleaving of joining, statistics, rotation, segmentation, crossings, clustering, edges and scoring at once.", "anchors": ["src/cluster_listener.rs: ClusterMemberListener", "src/data_manager/mod.rs: DatasetStats, Handler<LoadDataMessage>", "src/training/mod.rs: Training", "src/training/scoring/mod.rs: finalize_scoring, output_score"]}
{"id": "C98", "title": "The memory layout of an array does not matter", "statement": "An array handed over from Python is analysed by its rows and columns: its global minimum and maximum are those of its columns, however the array is laid out in memory (row by row, column by column, a transposed or sliced view).", "quantifier": "all arrays of all heights and widths, with all row and column strides", "why_tests_cant": "Every combination of strides and sizes is an input; the tests only use arrays laid out row by row.", "anchors": ["src/utils/ndarray_extensions/mod.rs: min_axis, max_axis", "src/data_manager/stats_collector/minmax.rs: calculate_minmax", "src/lib.rs: s2gpp", "s2gpp/__init__.py: fit_predict"]}
{"id": "C99", "title": "Segments as they are computed in single precision", "statement": "Every point gets the segment of the sector its direction lies in, with the angle, the width of a sector and the quotient computed in single precision.", "quantifier": "all rates up to 2^24 and all angles in single precision between minus pi and pi, and all rounding errors of the angle", "why_tests_cant": "There are four thousand million angles for each of the rates; errors only show within a millionth of a border.", "anchors": ["src/data_store/utils.rs: get_segment_id"]}
{"id": "C100", "title": "Repeating an analysis centres the windows by the same numbers", "statement": "Two complete runs of the principal component analysis on the same data with the same numbers of threads centre the windows by the same column means and merge the same factors.", "quantifier": "all numbers of rows and threads, all schedules of the messages between the threads, all columns of values in single precision", "why_tests_cant": "The order in which the threads report their means is up to the scheduler; a test sees one order, and most orders give the same sum for small integers.", "anchors": ["src/training/rotation/pca/mod.rs: finalize, column_means, global_means", "src/training/rotation/pca/helper.rs: finalize, send_to_main"]}
{"id": "C101", "title": "The numbers of hosts and threads do not change by what the windows are centred", "statement": "Analysing the same rows on one machine or on a cluster, with any numbers of threads, centres the windows by the same column means.", "quantifier": "all numbers of hosts, of threads per host and of rows, all ways to distribute the rows, all schedules of the messages, all columns of values in single precision", "why_tests_cant": "Tests compare runs on small integers with two hosts, where single precision sums are exact; whether another grouping of the additions changes the mean depends on the values and on every count.", "anchors": ["src/training/rotation/pca/mod.rs: finalize, center_columns_decomposition, helper_center_columns_decomposition, send_to_main", "src/training/rotation/pca/helper.rs: finalize, send_to_main"]}
{"id": "C102", "title": "The scores do not depend on the numerical library", "statement": "The same series analysed with the same settings gets the same scores whatever correct linear algebra library the machine uses (QR, singular value decomposition, inverse): installing another LAPACK, or a library that picks another of several equally correct factorisations, does not change the result.", "quantifier": "all series, settings and pairs of correct QR, SVD and inverse functions", "why_tests_cant": "A test runs with the one library installed on the test machine, and a test series whose components happen to be determined by the sign rule shows nothing about those that are not.", "anchors": ["src/training/rotation/pca/mod.rs: finalize, normalize", "src/training/rotation/mod.rs: rotate", "src/training/scoring/mod.rs: Scorer"]}
{"id": "C103", "title": "A cluster finishes the analysis of every series that one machine finishes", "statement": "If one machine finishes the analysis of a series and delivers its scores, a cluster with the same settings, to which the same series is distributed, finishes it too: no host waits forever because of what the measurements in some part of the series look like, for instance a machine at rest for a while.", "quantifier": "all series, settings, numbers of hosts and orders of messages", "why_tests_cant": "Test series swing in every part. Whether a host hangs depends on how the measurements fall into the partitions, so it depends on the number of hosts, and a hang has no failing assertion.", "anchors": ["src/training/segmentation/mod.rs: segment, try_send_inter_node_points, distribute_or_wait_for_segments", "src/training/mod.rs: Handler<RotationDoneMessage>, Handler<SegmentedMessage>"]}
{"id": "C104", "title": "A missing measurement affects only the windows that contain it", "statement": "If one value of the series is missing (the file says NaN), only the windows that contain its row are affected: every other window keeps its point, and the analysis of the rest of the series goes on.", "quantifier": "all series with one missing value, settings, numbers of hosts and threads, orders of messages, components and rotations", "why_tests_cant": "Tests have no missing values. How far one missing value reaches depends on every later stage, the sums over all hosts and the thresholds of comparisons that NaN never passes.", "anchors": ["src/data_manager/phase_spacer/mod.rs: PhaseSpacer, build", "src/training/rotation/mod.rs: reduce, apply_rotation_matrix", "src/training/rotation/pca/mod.rs: finalize", "src/data_store/utils.rs: get_segment_id", "src/training/segmentation/mod.rs: segment"]}
{"id": "C105", "title": "Every measurement of the series enters the analysis", "statement": "Every row of the series belongs to some window, so that an unusual value in any row can change the scores.", "quantifier": "all series, settings and numbers of hosts, with and without self correction", "why_tests_cant": "Which rows the windows cover depends on the length of the series, the pattern and the partition. Tests compare the windows of short series with fixed arrays and do not ask which rows are left out.", "anchors": ["src/data_manager/phase_spacer/mod.rs: PhaseSpacer, build", "src/training/rotation/mod.rs: reduce, apply_rotation_matrix"]}
{"id": "C106", "title": "All columns of a multi-channel series count alike", "statement": "The scores of a series with several channels do not depend on the order of its columns, and every column takes part in deciding which steps of the series are followed.", "quantifier": "all series with at least two columns, settings and components", "why_tests_cant": "Tests use one or two channels in one order and compare with stored results. Whether an analysis treats its columns alike is a statement about pairs of inputs.", "anchors": ["src/training/rotation/mod.rs: apply_rotation_matrix", "src/data_store/point.rs: calculate_segment_id", "src/utils/ndarray_extensions/mod.rs: to_polar"]}
{"id": "C107", "title": "A channel that never changes does not disturb the analysis of the others", "statement": "If one of several channels shows the same value in all rows (a sensor that is switched off), the scores are those that the other channels call for: the points keep usable coordinates and directions, the run ends and delivers scores that are numbers.", "quantifier": "all series with a channel that always shows the same whole number (as long as the sums of its values stay below 2^24, which for zero means up to 2^24 rows), all values of the other channels, all components, any numbers of hosts and threads and any order of their messages, any order and fusion of the additions inside products, with and without self correction", "why_tests_cant": "a test has to try every constant, every value of the other channels, every schedule of the distributed means and every way in which the library may order and fuse the additions", "anchors": ["src/training/rotation/mod.rs: get_rotation_matrix", "src/data_manager/reference_dataset_builder/mod.rs: build", "src/data_manager/stats_collector/minmax.rs: MinMaxNodeMessage", "src/utils/ndarray_extensions/mod.rs: norm", "src/data_manager/preprocessor/helper.rs: preprocess"]}
{"id": "C108", "title": "A series of numbers gets points whose coordinates are numbers", "statement": "If every value of the series is a finite single precision number, the coordinates of its points are numbers, their directions can be computed and the analysis ends with scores.", "quantifier": "all series with finite values, all settings, components, numbers of hosts and threads and orders of their messages", "why_tests_cant": "a test would have to try values at both ends of the range of single precision together with every schedule, decomposition and order of additions", "anchors": ["src/utils/ndarray_extensions/mod.rs: linspace", "src/data_manager/reference_dataset_builder/mod.rs: build", "src/data_manager/stats_collector/minmax.rs: MinMaxNodeMessage", "src/training/rotation/mod.rs: get_rotation_matrix, reduce"]}
{"id": "C109", "title": "Lengths given on the command line are usable or refused with a reason", "statement": "For every pattern length, latent, query length and number of threads that the program accepts and every series, either the analysis of the series delivers one score per window or the program ends with a message that names the offending length; in particular the result depends on the measurements.", "quantifier": "all pattern lengths, latents, query lengths and thread numbers; all series; all orders of the answers of the helper threads", "why_tests_cant": "The lengths interact with each other and with the length of the series, and some combinations only fail in certain orders of the answers; tests use a handful of compatible values.", "anchors": ["src/parameters.rs: Parameters", "src/data_manager/phase_spacer/mod.rs: build", "src/training/rotation/pca/mod.rs: finalize", "src/training/scoring/mod.rs: score, parallel_score, normalize_score"]}
{"id": "C110", "title": "A failing helper thread does not leave the analysis waiting", "statement": "When a task handed to a pool of helper threads fails (crossings, density estimation, scoring), the analysis ends with an error; when no task fails, the stage goes on exactly once with the answer of every task.", "quantifier": "every number of threads, every list of tasks, every order in which threads take tasks, fail or answer and answers are handled, release builds and other builds", "why_tests_cant": "which thread takes which task and when it fails depends on the scheduler; tests run one build and one schedule, and a lost answer shows as a test that hangs", "anchors": ["Cargo.toml: profile.release panic", "src/training/intersection_calculation/mod.rs: calculate_intersections, parallel_intersection_tasks", "src/training/intersection_calculation/helper.rs: IntersectionCalculationHelper::work", "src/training/node_estimation/multi_kde/actors/gaussian_kde.rs: evaluate, send_tasks", "src/utils/helper_protocol.rs: HelperProtocol"]}
{"id": "C111", "title": "Release builds and checked builds agree", "statement": "A release build, which does not check whether a subtraction goes below zero, gives the partitions of the file, the columns, the statistics, the windows of the series, the reference data set, the time index of the edges, the overlap between hosts, the windows to score and the assembled scores that a checked build gives, and aborts for the lengths and inputs for which the checked build aborts; no wrapped-around number leads to a result.", "quantifier": "every series that fits into memory, all lengths on the command line including 0 and lengths longer than the series, every list of edges, every word size", "why_tests_cant": "tests are run in one build only (overflow checks on); the shipped binary is the other one", "anchors": ["Cargo.toml: profile.release", "src/data_manager/data_reader/mod.rs: read_csv", "src/data_manager/stats_collector/std.rs: calculate_std", "src/data_manager/phase_spacer/mod.rs: PhaseSpacer::build", "src/training/scoring/weights.rs: count_edges_in_time", "src/training/scoring/mod.rs: score, finalize_scoring", "src/training/scoring/overlap.rs: send_overlap_to_neighbor", "src/data_manager/reference_dataset_builder/mod.rs: build", "src/training/scoring/helper.rs: ScoringHelper"]}
{"id": "C112", "title": "An infinite measurement is refused or affects only its windows", "statement": "If the file contains an infinite value (the text inf, which is accepted as a measurement), the program refuses the file, or the other points keep coordinates that are numbers and the analysis ends with scores for the other windows.", "quantifier": "all series with an infinite value in some row and column, including the last row; all other values, settings, components, numbers of hosts and threads and orders of their messages", "why_tests_cant": "a test would have to try every place of the value together with every schedule, decomposition and order of additions", "anchors": ["src/data_manager/data_reader/mod.rs: read_csv", "src/data_manager/mod.rs: DataPartitionMessage", "src/data_manager/stats_collector/minmax.rs: MinMaxNodeMessage", "src/data_manager/reference_dataset_builder/mod.rs: build", "src/training/rotation/mod.rs: get_rotation_matrix"]}
