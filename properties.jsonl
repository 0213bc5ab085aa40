{"id": "C01", "title": "Sub-list search finds the first occurrence", "statement": "search_sublist_bm(l, s) terminates without an index error and returns the smallest k such that l[k:k+len(s)] == s, and -1 exactly when no such k exists; an empty s gives 0. is_sublist_bm(l, s) is True exactly when s occurs in l as a contiguous block.", "quantifier": "all lists l, all lists s, over any element type with equality", "why_tests_cant": "The jump tables depend on the periodicity of s; only an argument over every needle and every haystack rules out a jump that skips an occurrence.", "anchors": ["prolothar_common/collections/list_utils.pyx:search_sublist_bm", "prolothar_common/collections/list_utils.pyx:is_sublist_bm", "prolothar_common/collections/list_utils.pyx:make_boyer_moore_char_table", "prolothar_common/collections/list_utils.pyx:make_boyer_moore_offset_table", "prolothar_common/collections/list_utils.pyx:is_prefix", "prolothar_common/collections/list_utils.pyx:suffix_length"]}
{"id": "C02", "title": "All occurrences are reported, once, in ascending order", "statement": "search_sublist_all_occurences(l, s) returns exactly the ascending list of all k with l[k:k+len(s)] == s, overlapping ones included (for an empty s: 0..len(l)).", "quantifier": "all lists l, s", "why_tests_cant": "Completeness over overlapping and periodic occurrences quantifies over every list and every needle.", "anchors": ["prolothar_common/collections/list_utils.pyx:search_sublist_all_occurences"]}
{"id": "C03", "title": "Even partitioning loses nothing", "statement": "For a non-empty list l and n >= 1, view_of_n_partitions(l, n) returns min(n, len(l)) non-empty contiguous pieces whose concatenation is l and whose lengths differ by at most one (the longer ones first); for an empty list or n <= 0 it raises ZeroDivisionError.", "quantifier": "all lists l and all integers n", "why_tests_cant": "Divisibility corner cases for every length and worker count.", "anchors": ["prolothar_common/collections/list_utils.pyx:view_of_n_partitions"]}
{"id": "C04", "title": "Longest common contiguous sublists are all found", "statement": "longest_common_sublists(a, b) returns (m, pairs) where m is the maximum length of a contiguous block common to a and b, and, when m > 0, pairs lists exactly the (i, j) with a[i:i+m] == b[j:j+m], each once; when m = 0 pairs is empty.", "quantifier": "all pairs of lists", "why_tests_cant": "Maximality and exhaustiveness over all block positions.", "anchors": ["prolothar_common/collections/list_utils.pyx:longest_common_sublists"]}
{"id": "C05", "title": "Flattening and self products", "statement": "deep_flatten returns the leaves of an arbitrarily nested list in left-to-right order; enumerate_reversed(l) yields (k, l[k]) for k = len(l)-1 .. 0; iterate_self_product(l) yields (l[i], l[j]) in lexicographic order of (i, j), leaving out exactly i = j when skip_diagonal is set.", "quantifier": "all nesting depths and lengths", "why_tests_cant": "Unbounded nesting depth and length.", "anchors": ["prolothar_common/collections/list_utils.pyx:deep_flatten", "prolothar_common/collections/list_utils.pyx:enumerate_reversed", "prolothar_common/collections/list_utils.pyx:iterate_self_product"]}
{"id": "C06", "title": "Shuffling lists together keeps rows together", "statement": "For whatever permutation the random generator applies, shuffle_together(l1..lm) returns lists whose rows are the same multiset of rows (l1[k],..,lm[k]) as before, applied with one common permutation; for lists of equal length n >= 1 every output list is a permutation of its input list.", "quantifier": "all lists of lists and all shuffles", "why_tests_cant": "All outcomes of the random generator.", "anchors": ["prolothar_common/collections/list_utils.pyx:shuffle_together"]}
{"id": "C07", "title": "All k-subsets with complements", "statement": "all_splits_of_size_k(t, k) with 1 <= k <= len(t) returns, once for every set of k index positions, the pair (elements at these positions, remaining elements), both in original order, in lexicographic order of positions; [] if k > len(t); ValueError if k < 1.", "quantifier": "all tuples t and integers k", "why_tests_cant": "Completeness and uniqueness over all binomially many subsets.", "anchors": ["prolothar_common/collections/tuple_utils.pyx:all_splits_of_size_k"]}
{"id": "C08", "title": "LCS length is the maximum", "statement": "length_of_common_subsequence(x, y) equals the length of a longest common subsequence of x and y.", "quantifier": "all pairs of sequences", "why_tests_cant": "Optimality against all exponentially many common subsequences.", "anchors": ["prolothar_common/longest_common_subsequence.pyx:length_of_common_subsequence", "prolothar_common/longest_common_subsequence.pyx:compute_lcs_matrix"]}
{"id": "C09", "title": "LCS backtrace is an optimal alignment", "statement": "lcs_with_backtrace(x, y) returns (m, pairs) with m the maximal common-subsequence length, len(pairs) = m, pairs strictly increasing in both components and x[i] == y[j] for each (i, j) in pairs.", "quantifier": "all pairs of sequences", "why_tests_cant": "Backtrace validity must hold for every tie-breaking situation in every matrix.", "anchors": ["prolothar_common/longest_common_subsequence.pyx:lcs_with_backtrace"]}
{"id": "C10", "title": "Levenshtein cost is the edit distance (unit costs)", "statement": "With unit costs, the cost returned by levenshtein_with_backtrace(s1, s2) is the minimal number of insertions, deletions and substitutions turning s1 into s2.", "quantifier": "all pairs of sequences", "why_tests_cant": "Optimality against all edit scripts.", "anchors": ["prolothar_common/levenshtein.pyx:levenshtein_with_backtrace", "prolothar_common/levenshtein.pyx:compute_cost_matrix"]}
{"id": "C11", "title": "Levenshtein edit operations turn s1 into s2", "statement": "With unit costs and both lengths at most 100000, backtracing terminates, returns exactly distance-many edit operations, and these operations (as a set of positioned operations) turn s1 into s2. For s1 empty and len(s2) >= 100002 it never terminates.", "quantifier": "all pairs of sequences", "why_tests_cant": "Every cost matrix and every tie must backtrace to a correct script.", "anchors": ["prolothar_common/levenshtein.pyx:backtrace"]}
{"id": "C12", "title": "Order of the Levenshtein edit operations", "statement": "The returned edit operations consist of a part strictly ascending in position followed by a part strictly descending in position, for all costs; no two operations have the same position. They are not in sequence order in general (a caller who expects ascending or descending order is wrong: [1,2,3] to [4,5,6] yields positions 0, 2, 1).", "quantifier": "all pairs of sequences and all integer costs", "why_tests_cant": "The arrangement depends on the parity of the remaining steps of the backtrace, for every alignment.", "anchors": ["prolothar_common/levenshtein.pyx:backtrace"]}
{"id": "C13", "title": "Weighted Levenshtein costs", "statement": "For all integer insertion, deletion and substitution costs a returned cost is the least price of an alignment in which insertions cost 1 before the first symbol of the first sequence is consumed and the insertion cost afterwards, deletions cost 1 before the first symbol of the second sequence is consumed and the deletion cost afterwards, and changed symbols the substitution cost. With insertion and deletion cost 1 this is the cost of a cheapest edit script; with other costs it need not be, and the operations need not fit. The call returns for non-negative costs whenever the total length times the largest cost is at most 100000.", "quantifier": "all sequences and all integer costs", "why_tests_cant": "Minimum over all alignments for all weightings.", "anchors": ["prolothar_common/levenshtein.pyx:compute_cost_matrix"]}
{"id": "C14", "title": "Prime factorisation", "statement": "For 1 <= n <= 2^53, prime_factors(n) terminates and returns the ascending list of primes whose product is n. prime_factors(0) does not terminate; every other call does. For a negative n >= -2^53 the result is one 2 for each time n can be halved and nothing else. Above 2^53 the float division may round, and then the product of the returned factors may differ from n.", "quantifier": "all integers n", "why_tests_cant": "Correctness for all integers, including when the float quotient stays exact.", "anchors": ["prolothar_common/math_utils.py:prime_factors"]}
{"id": "C15", "title": "Set similarities are symmetric, bounded and exact", "statement": "dice, jaccard and overlap are 2|A&B|/(|A|+|B|), |A&B|/|A|B| and |A&B|/min(|A|,|B|); they are symmetric, lie in [0, 1]; dice and jaccard are 1 exactly on equal sets and 0 exactly on disjoint sets that are not both empty; overlap is 1 iff one set contains the other; overlap_coefficient raises ZeroDivisionError exactly if one set is empty and the other is not.", "quantifier": "all pairs of finite sets", "why_tests_cant": "All set pairs.", "anchors": ["prolothar_common/collections/set_similarity.py"]}
{"id": "C16", "title": "TwoWayDict forward view is a map; inverse view", "statement": "After any sequence of assignments d[k] returns the last value assigned to k (KeyError if none), and the inverse look-up of v returns every k that was ever assigned v; if no key is ever re-assigned a different value, inverse(v) is exactly the set of k with d[k] == v.", "quantifier": "all histories of assignments", "why_tests_cant": "All histories.", "anchors": ["prolothar_common/collections/two_way_dict.py:TwoWayDict"]}
{"id": "C17", "title": "Streaming statistics equal batch statistics", "statement": "After pushing any non-empty sequence of values (in exact arithmetic), count, min, max, mean, variance(ddof), and the third and fourth central moments equal their textbook definitions on the whole sequence; variance is NaN if ddof >= count.", "quantifier": "all finite sequences of numbers, all degrees of freedom", "why_tests_cant": "Incremental updates must agree with the closed form after every history of pushes.", "anchors": ["prolothar_common/experiments/statistics.pyx:Statistics.push", "prolothar_common/experiments/statistics.pyx:Statistics.variance"]}
{"id": "C18", "title": "Merging statistics equals statistics of the concatenation", "statement": "For any history of creating, pushing into and merging Statistics objects, len, minimum, maximum, mean, variance and standard deviation are those of the concatenation of all values that went in, in exact arithmetic. The standard deviation is NaN whenever the variance is.", "quantifier": "all pairs of sequences of numbers (histories of push and merge)", "why_tests_cant": "All merge trees.", "anchors": ["prolothar_common/experiments/statistics.pyx:Statistics.merge", "prolothar_common/experiments/statistics.pyx:Statistics.stddev"]}
{"id": "C19", "title": "Buffered random choice only returns options and replays the generator stream", "statement": "BufferingChoice rejects invalid option/probability lists, and its n-th sample is the n-th element of the concatenation of the buffers drawn from the generator, each refill drawn only when the previous buffer is used up.", "quantifier": "all draw histories and all generator outputs", "why_tests_cant": "All histories and all generator behaviours.", "anchors": ["prolothar_common/random_utils.py:BufferingChoice"]}
{"id": "C20", "title": "Primitive tandem repeat types are exactly the primitive words", "statement": "For every non-empty repeat type w of length at most 2^53, is_primitive_tandem_repeat_type(w) terminates and is True iff w is not a power u^k with k >= 2. (For the empty word the call never returns.)", "quantifier": "all non-empty words over any alphabet", "why_tests_cant": "Requires the number-theoretic fact that testing the maximal proper divisors suffices, for all lengths.", "anchors": ["prolothar_common/models/patterns.py:is_primitive_tandem_repeat_type", "prolothar_common/math_utils.py:prime_factors"]}
{"id": "C21", "title": "is_tandem_array recognises powers", "statement": "For every sequence, start index, non-empty repeat type w and optional max_k, is_tandem_array returns (k >= 2, k) where k is the largest number of consecutive copies of w starting at the index, capped by max_k. (With an empty type and no max_k it never returns.)", "quantifier": "all sequences, start indices, words and caps", "why_tests_cant": "All lengths.", "anchors": ["prolothar_common/models/patterns.py:is_tandem_array"]}
{"id": "C22", "title": "Tandem arrays reported for a repeat type are exactly the maximal runs", "statement": "create_tandem_arrays_from_repeat_type(w, s) for a primitive w returns, in ascending order of start, exactly the triples (i, w, k) such that k >= 1 copies of w start at i and no copy ends at i or starts at i + k|w|. For several primitive types the result is the union, sorted by start and then by length of the type. For any non-empty type every reported triple is a run and every occurrence lies in one; without primitivity the runs need not be maximal.", "quantifier": "all sequences and words, primitive or not", "why_tests_cant": "All overlaps between occurrences.", "anchors": ["prolothar_common/models/patterns.py:create_tandem_arrays_from_repeat_type"]}
{"id": "C23", "title": "Super-maximal repeats", "statement": "filter_super_maximal_repeats returns, without duplicates and ordered by length, exactly those repeats which are not a contiguous sublist of a different repeat in the input.", "quantifier": "all lists of words, with or without duplicates", "why_tests_cant": "All families of words.", "anchors": ["prolothar_common/models/patterns.py:filter_super_maximal_repeats"]}
{"id": "C24", "title": "Maximal repeats", "statement": "For every non-empty sequence without the terminator symbol, find_maximal_repeats(s, m) returns without duplicates exactly the non-empty words of length >= m that are followed by two different symbols in s, the end counting as a symbol of its own. Hence every word of a maximal pair of length >= m is returned; but words which are not left-maximal are returned too. The empty sequence raises IndexError, and sequences containing the terminator can.", "quantifier": "all sequences", "why_tests_cant": "All position pairs.", "anchors": ["prolothar_common/models/patterns.py:find_maximal_repeats", "prolothar_common/models/patterns.py:is_maximal_pair"]}
{"id": "C25", "title": "Simple activity log round trip", "statement": "For every list of non-empty activity lists l, create_from_simple_activity_log(l) yields a log with to_simple_activity_log() == l, trace ids 0..len(l)-1, and no attributes or transition ids; if one of the lists is empty, ValueError is raised.", "quantifier": "all simple logs", "why_tests_cant": "All logs.", "anchors": ["prolothar_common/models/eventlog/eventlog.py:EventLog.create_from_simple_activity_log", "prolothar_common/models/eventlog/eventlog.py:EventLog.to_simple_activity_log"]}
{"id": "C26", "title": "Event log dictionary round trip", "statement": "create_from_dict(to_dict(log)) returns a log with the same traces, ids, events and attributes, in order, provided every trace has an event. Exactly the transition ids are lost (so the round trip is exact iff no event carries one). If a trace has no events (possible after filter_activities(remove_empty_traces=False)) reading back raises ValueError.", "quantifier": "all logs", "why_tests_cant": "All logs and attribute maps.", "anchors": ["prolothar_common/models/eventlog/eventlog.py:EventLog.to_dict", "prolothar_common/models/eventlog/eventlog.py:EventLog.create_from_dict", "prolothar_common/models/eventlog/trace.pyx:Trace", "prolothar_common/models/eventlog/event.pyx:Event"]}
{"id": "C27", "title": "Filtering activities", "statement": "filter_activities(allowed) leaves in each trace exactly the events whose activity is allowed, in order, with ids and attributes unchanged; with remove_empty_traces exactly the traces left without events are dropped, otherwise no trace is dropped.", "quantifier": "all logs and activity sets", "why_tests_cant": "All logs.", "anchors": ["prolothar_common/models/eventlog/eventlog.py:EventLog.filter_activities"]}
{"id": "C28", "title": "Cutting traces", "statement": "cut_traces keeps, of every trace that contains a start activity, the part from the first start activity on, then of that the part up to the last end activity, and drops traces left empty. The natural reading 'every remaining trace starts with a start activity' is false: a trace without any start activity keeps its last event.", "quantifier": "all logs and activity sets", "why_tests_cant": "All traces; the unchanged code mishandles traces without start activity.", "anchors": ["prolothar_common/models/eventlog/eventlog.py:EventLog.cut_traces"]}
{"id": "C29", "title": "Keep-first-occurrence", "statement": "After keep_first_occurence_of_activity_only every trace contains exactly the events with no earlier event of the same activity, in original order.", "quantifier": "all logs", "why_tests_cant": "All traces.", "anchors": ["prolothar_common/models/eventlog/eventlog.py:EventLog.keep_first_occurence_of_activity_only"]}
{"id": "C30", "title": "Counts over logs", "statement": "count_nr_of_events is the number of events over all traces; compute_activity_set is the set of occurring activities; compute_activity_supports maps exactly the occurring activities to the number of their occurrences; the start/end activity sets are the activities of first/last events. A log with an emptied trace makes the start/end sets raise IndexError.", "quantifier": "all logs", "why_tests_cant": "All logs.", "anchors": ["prolothar_common/models/eventlog/eventlog.py:EventLog.count_nr_of_events", "prolothar_common/models/eventlog/eventlog.py:EventLog.compute_activity_set", "prolothar_common/models/eventlog/eventlog.py:EventLog.compute_activity_supports", "prolothar_common/models/eventlog/eventlog.py:EventLog.compute_set_of_start_activities", "prolothar_common/models/eventlog/eventlog.py:EventLog.compute_set_of_end_activities"]}
{"id": "C31", "title": "Follows relation count", "statement": "count_follows_directly_or_indirectly maps exactly the pairs of occurring activities (a,b) to the number of pairs of positions i<j in one trace with a at i, b at j and no a strictly between; independent of set iteration order.", "quantifier": "all logs, activity pairs and set iteration orders", "why_tests_cant": "All traces.", "anchors": ["prolothar_common/models/eventlog/eventlog.py:EventLog.count_follows_directly_or_indirectly"]}
{"id": "C32", "title": "Train/test split and k folds partition the log", "statement": "For every shuffle and 0<=p<=1, train_test_split returns a prefix and the rest of the shuffled log, so together they are the log as a multiset; the test part has ceil(p*n) traces (exact arithmetic); p outside [0,1] raises ValueError. For 2<=k<=n, k_folds yields k pairs whose test parts concatenated in order are the log, each train part is exactly the other test parts, and test sizes are floor(n/k) or one more; other k raise ValueError.", "quantifier": "all logs, proportions, k and shuffles", "why_tests_cant": "All random outcomes.", "anchors": ["prolothar_common/models/eventlog/eventlog.py:EventLog.train_test_split", "prolothar_common/models/eventlog/eventlog.py:EventLog.k_folds"]}
{"id": "C33", "title": "Joining successive events", "statement": "join_sucessive_events_with_same_activity replaces each maximal run of successive events with the same, non-blacklisted activity by one event with the first event's activity, transition id and attributes, the last event's end date and a duration that is end minus start or the sum of durations; with the check enabled it only succeeds if all other attributes agree in the run; without date attributes it always succeeds when they agree.", "quantifier": "all logs", "why_tests_cant": "All run structures.", "anchors": ["prolothar_common/models/eventlog/eventlog.py:EventLog.join_sucessive_events_with_same_activity"]}
{"id": "C34", "title": "Log equality is multiset equality of traces", "statement": "Two logs compare equal iff their traces are the same multiset, where traces are the same iff events and attributes are equal and the ids have equal hashes. (Trace equality alone ignores ids, so logs with pairwise equal traces can differ: refuted.)", "quantifier": "all pairs of logs", "why_tests_cant": "All pairs.", "anchors": ["prolothar_common/models/eventlog/eventlog.py:EventLog.__eq__"]}
{"id": "C35", "title": "Noise keeps its promise for every random outcome", "statement": "For every stream of random numbers: AddActivity inserts the activity exactly after the events whose draw is below p; RemoveEvents removes exactly the events whose draw is below p and then empty traces; SwapEvents passes once over each trace, exchanging neighbours j, j+1 exactly if draw j is below p, so it permutes the events and moves none more than one place to the front; ids and attributes stay; probability 0 changes nothing; a probability outside [0,1) raises ValueError; CombinedNoise applies its parts in order and must not be empty.", "quantifier": "all logs and all random outcomes", "why_tests_cant": "All random outcomes.", "anchors": ["prolothar_common/lognoise/add_activity.py", "prolothar_common/lognoise/remove_events.py", "prolothar_common/lognoise/swap_events.py", "prolothar_common/lognoise/combined_noise.py"]}
{"id": "C36", "title": "Log queries form a boolean algebra", "statement": "Executing a query never fails and returns exactly the traces (in order) that satisfy it; contains-none/-all/-activity/-activity-with/-subsequence mean what they say and and/or/invert are conjunction, disjunction and negation.", "quantifier": "all query trees and logs", "why_tests_cant": "All nesting depths.", "anchors": ["prolothar_common/models/log_queries/queries.py"]}
{"id": "C37", "title": "Directly-follows counts", "statement": "create_from_event_log(log) has an edge (a, b) iff b directly follows a somewhere, its count is the number of adjacent positions (a, b) in the log, and its nodes are the activities of the log.", "quantifier": "all logs", "why_tests_cant": "All logs.", "anchors": ["prolothar_common/models/directly_follows_graph.pyx:DirectlyFollowsGraph.create_from_event_log", "prolothar_common/models/directly_follows_graph.pyx:DirectlyFollowsGraph.read_counts_from_log", "prolothar_common/models/directly_follows_graph.pyx:DirectlyFollowsGraph.add_count"]}
{"id": "C38", "title": "Graph representation stays consistent", "statement": "After any history of graph operations (adding and removing nodes, edges and counts, filters, selections, copies, reading logs, path searches, renaming to a new activity, joining a graph without common edges) all views of the graph agree: each activity is listed once, each edge once with its count, once among the following activities of its start and the preceding ones of its end, its ends are activities of the graph, and the node, edge and degree counts match. The elementary operations change exactly what they name.", "quantifier": "all histories of calls, set iteration orders, activities and counts", "why_tests_cant": "All histories.", "anchors": ["prolothar_common/models/directly_follows_graph.pyx:DirectlyFollowsGraph.add_node", "prolothar_common/models/directly_follows_graph.pyx:DirectlyFollowsGraph.add_count", "prolothar_common/models/directly_follows_graph.pyx:DirectlyFollowsGraph.remove_node", "prolothar_common/models/directly_follows_graph.pyx:DirectlyFollowsGraph.remove_edge"]}
{"id": "C39", "title": "Removing a node with connections preserves reachability", "statement": "remove_node(a, create_connections=True) leaves every other pair of activities connected by a directed path exactly if it was before.", "quantifier": "all graphs and nodes", "why_tests_cant": "All graphs.", "anchors": ["prolothar_common/models/directly_follows_graph.pyx:DirectlyFollowsGraph.remove_node"]}
{"id": "C40", "title": "Shortest path is a shortest path", "statement": "compute_shortest_path returns, for a known start different from the end and distinct existing forbidden edges, a path of existing non-forbidden edges of minimal length if there is one, [] otherwise, and leaves nodes, edges and counts as they were; start = end gives [], an unknown start ValueError. compute_shortest_path_to_one_of returns a path to an end nearest to the start, [] if none can be reached.", "quantifier": "all graphs, endpoints and sets of forbidden existing edges", "why_tests_cant": "Minimality against all paths of all graphs.", "anchors": ["prolothar_common/models/directly_follows_graph.pyx:DirectlyFollowsGraph.compute_shortest_path", "prolothar_common/models/directly_follows_graph.pyx:DirectlyFollowsGraph.compute_shortest_path_to_one_of"]}
{"id": "C41", "title": "Reachability queries", "statement": "get_reachable_activities / get_activities_that_reach return exactly the nodes reachable by a directed path (resp. backwards).", "quantifier": "all graphs", "why_tests_cant": "All graphs, unbounded path lengths.", "anchors": ["prolothar_common/models/directly_follows_graph.pyx:DirectlyFollowsGraph.get_reachable_activities"]}
{"id": "C42", "title": "Weakly connected components", "statement": "get_weakly_connected_components partitions the nodes into the classes of the weak-connectivity relation; the largest-component selection keeps exactly a class of maximal size with all its edges.", "quantifier": "all graphs", "why_tests_cant": "All graphs.", "anchors": ["prolothar_common/models/directly_follows_graph.pyx:DirectlyFollowsGraph.get_weakly_connected_components"]}
{"id": "C43", "title": "Edge filters keep exactly what they promise", "statement": "filter_edges_by_absolute_count(c) keeps all nodes and exactly the edges with count >= c, counts unchanged; filter_edges_by_local_frequency(f) keeps exactly the edges whose share of the count leaving their start is at least f; with keep_at_least_one_outgoing_edge (counts positive) a node none of whose edges qualify keeps exactly one edge, one of maximal count.", "quantifier": "all graphs that can be built, thresholds (exact rational shares)", "why_tests_cant": "All graphs.", "anchors": ["prolothar_common/models/directly_follows_graph.pyx:DirectlyFollowsGraph.filter_edges_by_absolute_count", "prolothar_common/models/directly_follows_graph.pyx:DirectlyFollowsGraph.filter_edges_by_local_frequency"]}
{"id": "C44", "title": "Renaming an activity", "statement": "rename_activity(a, b) for an activity b not in the graph yields the same graph with a replaced by b, counts unchanged and all views consistent. (Renaming an activity to itself removes it from the nodes; renaming onto an existing one loses edges of that one.)", "quantifier": "all graphs", "why_tests_cant": "All graphs; a = b or an existing b break it.", "anchors": ["prolothar_common/models/directly_follows_graph.pyx:DirectlyFollowsGraph.rename_activity"]}
{"id": "C45", "title": "Joining graphs", "statement": "join(other) has the nodes of both graphs; if no edge is in both, it has the edges of both with their counts and is consistent. The count of an edge in both graphs is the other graph's, not the sum, and such an edge is listed twice among the following activities.", "quantifier": "all pairs of graphs", "why_tests_cant": "Claim over all pairs; the unchanged code overwrites counts.", "anchors": ["prolothar_common/models/directly_follows_graph.pyx:DirectlyFollowsGraph.join"]}
{"id": "C46", "title": "Strongly connected components", "statement": "find_strongly_connected_components returns lists that partition 0..n-1; none is empty; two nodes are in the same list iff each can be reached from the other along edges; the lists come in topological order, that is no node of a later list reaches a node of an earlier one.", "quantifier": "all graphs that histories of creating graphs, copying them and adding and removing edges between existing nodes produce", "why_tests_cant": "All graphs, all depth-first-search orders.", "anchors": ["prolothar_common/models/diintgraph/graph.cpp:Graph::findStronglyConnectedComponents", "prolothar_common/models/diintgraph/directed_int_graph.pyx"]}
{"id": "C47", "title": "Integer graph edge operations", "statement": "After any history of graph creation, copy, add_edge and remove_edge calls on any number of graphs, contains_edge(a, b) of a graph is true iff (a, b) was added to it, or to the graph it was copied from before the copy, and not removed since; changing a copy never changes the original and vice versa; get_ancestors(a) lists the ends of the edges of a in the order they were added, an edge added several times since its last removal as often.", "quantifier": "all histories over any number of graphs that name existing nodes; for other node numbers the C++ code has no defined behaviour", "why_tests_cant": "All histories.", "anchors": ["prolothar_common/models/diintgraph/directed_int_graph.pyx", "prolothar_common/models/diintgraph/graph.cpp"]}
{"id": "C48", "title": "Prefix tree counts prefixes", "statement": "Appending never fails. After appending any sequences, the tree has exactly one node for every prefix of an appended sequence and no others; the count of a node is the number of appended sequences having that prefix; a node is a leaf iff no appended sequence extends it; node ids are unique; children are in strictly descending order of their symbols; the level-order traversal lists every node but the root exactly once, shorter prefixes first.", "quantifier": "all histories of appended sequences over any strictly totally ordered symbols", "why_tests_cant": "All histories; relies on binary search over sorted children.", "anchors": ["prolothar_common/models/prefix_tree/prefix_tree.py"]}
{"id": "C49", "title": "Transition system replays every added sequence", "statement": "After adding any sequences, the states are the representations of their prefixes, the start state is that of the empty prefix, the end states are those of the whole sequences; the transition kept for a state and an event is the one seen last, and asking for one never seen raises KeyError. If the successor state depends only on state and event, the transitions are exactly the steps of the added sequences and every added sequence can be replayed from the start state to an end state. The four shipped representations (set, list, last, last n) have this property.", "quantifier": "all histories of added sequences and all representation functions", "why_tests_cant": "All histories.", "anchors": ["prolothar_common/models/labeled_transition_system"]}
{"id": "C50", "title": "Token counts never become negative under simulation", "statement": "For any net built with the public methods, any number of simulated time steps and forced transitions and any random selection, every place holds a non-negative number of tokens. In one simulated step each place with a token picks one of the transitions behind it whose guard accepts; exactly the transitions (with at least one start place) picked by all their start places fire, each consuming one token per start place and producing one per end place; nothing but tokens changes; a step fails only with an exception of a guard.", "quantifier": "all nets, markings, random choices, numbers of steps", "why_tests_cant": "All schedules.", "anchors": ["prolothar_common/models/data_petri_net.py:DataPetriNet.simulate_one_timestep"]}
{"id": "C51", "title": "Forcing a transition", "statement": "force_transition fires iff the transition is in the net and every start place has a token; it then consumes one token per start place and produces one per end place, ignoring guards. Otherwise it raises ValueError; for an unknown id the net is unchanged, otherwise some of the start places that had a token have lost one (the marking is not restored), nothing else changes.", "quantifier": "all nets and markings", "why_tests_cant": "Claim over all markings and iteration orders; a failed call leaves a partial decrement.", "anchors": ["prolothar_common/models/data_petri_net.py:DataPetriNet.force_transition"]}
{"id": "C52", "title": "Workflow net transformation", "statement": "is_workflow_net holds iff the net has exactly one source and exactly one sink place. transform_to_workflow_net raises ValueError iff one of the ids it chooses for a new place or transition is taken; otherwise the result keeps all places, tokens, transitions, adds only empty places and invisible unguarded transitions, and is a workflow net iff the original net has at least one source and at least one sink.", "quantifier": "all nets built with the public methods, all iteration orders of sets", "why_tests_cant": "All nets.", "anchors": ["prolothar_common/models/data_petri_net.py:DataPetriNet.transform_to_workflow_net"]}
{"id": "C53", "title": "Fresh ids", "statement": "make_id_unique terminates and returns the first of id, id', id'', ... that is not among the existing ids; in particular the id itself if it is free.", "quantifier": "all ids and all finite sets of existing ids", "why_tests_cant": "Termination and freshness over all id sets.", "anchors": ["prolothar_common/models/data_petri_net.py:DataPetriNet.make_id_unique"]}
{"id": "C54", "title": "Ordered parallel map equals sequential map", "statement": "For a non-empty list, every positive number of workers and every interleaving of the workers and the collecting main program: map with keep_order on the threading list returns what the sequential list returns, in order, and raises what it raises; on the multiprocess list it returns the sequential result in order whenever the mapped function raises nothing and returns no Exception objects. Every run is finite and no run gets stuck before the main program is done. The empty list is an exception: the parallel maps raise ZeroDivisionError where the sequential map returns [].", "quantifier": "all mapped functions, lists, worker counts and schedules", "why_tests_cant": "All schedules.", "anchors": ["prolothar_common/parallel/multiprocess", "prolothar_common/parallel/threading"]}
{"id": "C55", "title": "Unordered parallel map, filter-map and reduce", "statement": "For every schedule, map and map_filter without order return a permutation of the sequential result, and map_reduce with an associative and commutative reduce function returns the sequential reduction (multiprocess: when no value is an Exception object). With threads an exception of the mapped function is raised by every variant; map and map_reduce raise the one the sequential list raises. Every run is finite and none gets stuck.", "quantifier": "all mapped, filter and reduce functions, lists, worker counts and schedules", "why_tests_cant": "All schedules.", "anchors": ["prolothar_common/parallel/multiprocess", "prolothar_common/parallel/threading"]}
{"id": "C56", "title": "Failures of the mapped function surface", "statement": "On the multiprocess list, if mapping some element raises or returns an exception, and none of them is StopIteration, then map (ordered or not) and map_filter raise, for every schedule, an exception that one of the elements caused; map_reduce raises even then, with StopIteration turned into RuntimeError. StopIteration does not surface from map: with keep_order the result is the concatenation over the workers of the results before the first StopIteration, so results are silently lost.", "quantifier": "all mapped functions, lists, worker counts and schedules", "why_tests_cant": "The failing element and the schedule are arbitrary.", "anchors": ["prolothar_common/parallel/multiprocess"]}
{"id": "C57", "title": "k-medoid clustering terminates in a closest-medoid assignment", "statement": "For 1 <= k <= number of objects and every initial choice, KMedoid.cluster terminates and returns one label per object and k medoid positions such that each object is labelled with the first medoid that is closest to it (smallest dissimilarity, or largest similarity in similarity mode) and no object of a cluster has a smaller sum of values to all objects than the medoid (in both modes). The medoids are pairwise different when every object is strictly less dissimilar to itself than to any other. k <= 0 or k > number of objects raises ValueError.", "quantifier": "all object lists, dissimilarity functions (also asymmetric), k, shuffles, modes", "why_tests_cant": "Termination and optimality over all inputs and random choices.", "anchors": ["prolothar_common/clustering/k_medoid.py"]}
{"id": "C58", "title": "Cluster decoding partitions the instances", "statement": "decode_label_vector returns max(labels)+1 clusters; cluster k holds, in order, the instances labelled k, and the outliers are the instances with negative labels, in order. With one label per instance, clusters and outliers together are a permutation of the instances. An empty label vector raises ValueError.", "quantifier": "all instance lists and label vectors", "why_tests_cant": "All vectors.", "anchors": ["prolothar_common/clustering/traces/clustering_algorithm/vector_based.py"]}
{"id": "C59", "title": "Dataset bookkeeping", "statement": "After any history of creating a dataset and calling add_instance, add_categorical_attribute, add_numerical_attribute and remove_attribute on it (failing calls included), while the rest of the program does not write into its instances: ids are unique; every instance has exactly the dataset's attributes; get_unique_values is exactly the set of values present; if names are never reused the lists of categorical and numerical names are exact. Each call does exactly what it says or raises (add_instance: ValueError for wrong attributes or a taken id, never a replacement). copy gives new instances and leaves the old ones alone. Reusing an attribute name and sharing instances with a subdataset break the guarantees in exactly the stated way.", "quantifier": "all histories of method calls with all arguments, iteration orders and interleaved foreign changes", "why_tests_cant": "The invariant ranges over all histories and set iteration orders.", "anchors": ["prolothar_common/models/dataset/dataset.py:Dataset"]}
{"id": "C60", "title": "Dataset splitting", "statement": "For every shuffle, split puts every instance in exactly one of train and test set and the test set has ceil(n*p) instances (exact arithmetic; non-empty if the dataset is); with binary64 numbers it still partitions but the test set can be empty; random_subset has exactly the requested number of distinct members or raises ValueError; group_by_categorical_attribute gives one non-empty group per value with exactly the instances having it; get_subdataset has exactly the given members.", "quantifier": "all reachable datasets, shuffles, proportions and sizes", "why_tests_cant": "All random outcomes and sizes.", "anchors": ["prolothar_common/models/dataset/dataset.py:Dataset.split", "prolothar_common/models/dataset/dataset.py:Dataset.random_subset", "prolothar_common/models/dataset/dataset.py:Dataset.group_by_categorical_attribute"]}
{"id": "C61", "title": "Encoders are faithful", "statement": "Label encoding replaces every categorical value by its rank among the sorted values (so equal values and only those get equal labels); one-hot encoding replaces every categorical attribute not already 0-1 by one column per value that is 1 exactly for the instances with the value, provided the column names are new and distinct; min-max scaling maps the least value to the lower and the greatest to the upper bound, keeps all values in the range and their order, and raises ZeroDivisionError / ValueError exactly as stated for constant attributes / empty datasets. Ids, targets, other attributes and other objects stay unchanged.", "quantifier": "all reachable datasets, iteration orders and predefined value sets", "why_tests_cant": "All datasets and value sets.", "anchors": ["prolothar_common/models/dataset/transformer"]}
{"id": "C62", "title": "Target sequence noise", "statement": "For every random outcome: removing noise leaves exactly the events whose random number is above the probability, in order; adding noise draws a number for every gap and inserts there, if it is below the probability, the one alphabet element chosen next, so nothing is lost, failing only for an empty alphabet; swap noise exchanges neighbours, from the front on, exactly if their number is below the probability, and goes on with the event moved back if multiple swaps are allowed and behind the pair otherwise, so it permutes, moves no event more than one position to the front, and without multiple swaps no event by more than one position. Applied to a dataset only the target sequences of its instances change, one after the other with one generator.", "quantifier": "all sequences, datasets, probabilities and random outcomes", "why_tests_cant": "All random outcomes.", "anchors": ["prolothar_common/models/dataset/transformer"]}
{"id": "C63", "title": "Result cache", "statement": "Once a call of a decorated function has returned, every later call that uses the same cache file returns the same result without evaluating the function, whatever calls are made or killed in between. A call evaluates its function exactly when its file does not exist. An exception is passed on and nothing is cached. A call touches no file but its own. Calls share a file exactly when name + key are the same text (always, without a key function), and then get each other's results. A process killed while the result is written, or a result that cannot be pickled, leaves an incomplete file: from then on every call that uses it raises without evaluating the function.", "quantifier": "all functions (pure or not), keys, call histories, kill points and pickle formats that load what they dump and reject incomplete files", "why_tests_cant": "All histories and crash points.", "anchors": ["prolothar_common/testing/non_productive_result_cache.py"]}
{"id": "C64", "title": "Transaction database export", "statement": "The statistics are exact; the count of an item is the number of transactions that contain it. save_to_fic_file and save_to_dat_file return a bijection between consecutive numbers and the items with which the written lines decode to the transactions. Dat numbers ascend with the items and depend only on which items occur. In the fic file, the counts in the 'ac' line stand in the reverse order of the numbers in the 'ab' line. For an empty database save_to_fic_file raises ValueError and leaves a file with only the version line.", "quantifier": "all databases, items, offsets, total orders of items, set iteration orders", "why_tests_cant": "All databases.", "anchors": ["prolothar_common/models/transactions.py"]}
{"id": "C65", "title": "Nested graph flattening", "statement": "replace_high_level_edges_by_low_level_edges keeps the edges between nodes without children and replaces every other edge by the edges from all exits of its source (descending to children without outgoing edges) to all entries of its target (descending to children without edges from siblings); only edges between nodes without children are left. An edge whose source or target has no exit or entry is lost. An edge with an unknown end raises KeyError and nothing changes. A node nested in itself makes the search endless. from_dict(to_dict(g)) is g, labels included, unless a reserved name is used as an attribute. Two graphs are equal iff they have the same nodes and edges up to order and node labels.", "quantifier": "all nested graphs of any depth", "why_tests_cant": "All nesting depths.", "anchors": ["prolothar_common/models/nested_graph.py"]}
{"id": "C66", "title": "find_primitive_tandem_repeats finds every square", "statement": "For min_word_length >= 1, find_primitive_tandem_repeats(s, min, max) returns without duplicates exactly the primitive words w with min <= |w| <= max (default: half the length of s) such that ww occurs in s, whatever the iteration order of sets (for sequences of at most 2^53 elements: half the length is computed with a float).", "quantifier": "all sequences, length limits and set iteration orders", "why_tests_cant": "Consecutive entries of the occurrence list must be shown to be exactly |w| apart for every square; that needs primitivity for all words.", "anchors": ["prolothar_common/models/patterns.py:find_primitive_tandem_repeats", "prolothar_common/models/patterns.py:extract_words"]}
{"id": "C67", "title": "A TandemArray object describes a repetition of the trace", "statement": "Constructing TandemArray(trace, start, w, n) raises ValueError iff n < 2 or two copies of w do not stand at start; it does not check that n copies stand there (witness). For an object whose n copies do stand at start, is_maximal() is True iff no further copy of w stands directly before or after them.", "quantifier": "all traces, start indices, non-empty types and repeat counts", "why_tests_cant": "All combinations of counts and positions, including counts larger than the trace allows.", "anchors": ["prolothar_common/models/patterns.py:TandemArray"]}
{"id": "C68", "title": "Super-maximal and near-super-maximal repeats of a sequence", "statement": "For every non-empty sequence without the terminator, find_super_maximal_repeats returns exactly the repeats (as returned by find_maximal_repeats) that are not part of another repeat; find_near_super_maximal_repeats returns exactly these plus the repeats with an occurrence that overlaps no occurrence of a super-maximal repeat. No duplicates, whatever the set iteration order.", "quantifier": "all sequences, minimal lengths and set iteration orders", "why_tests_cant": "Quantifies over all words of all sequences and over hash orders.", "anchors": ["prolothar_common/models/patterns.py:find_super_maximal_repeats", "prolothar_common/models/patterns.py:find_near_super_maximal_repeats", "prolothar_common/models/suffix_tree.py:SuffixTree"]}
{"id": "C69", "title": "Repeats over a log never cross traces", "statement": "get_maximal_repeats_over_log(log, sep, m) returns exactly the separator-free segments, of length >= m, of the super-maximal repeats of the traces joined by sep. Every returned word (m >= 1) contains no separator and occurs at two different places inside traces of the log.", "quantifier": "all logs without the terminator, all separators and minimal lengths", "why_tests_cant": "All ways repeats can straddle trace borders.", "anchors": ["prolothar_common/models/patterns.py:get_maximal_repeats_over_log"]}
{"id": "C70", "title": "Deriving durations from end dates", "statement": "If derive_event_duration_by_end_date succeeds, every event keeps its activity and other attributes, its start date is the recorded one or else the end date of the previous event (own end date for the first), its duration is end minus start, and no duration is negative; it succeeds whenever every event of non-empty traces has an end date and its duration is computable and not negative.", "quantifier": "all logs, attribute names (distinct) and subtraction operations", "why_tests_cant": "All logs and date attribute patterns.", "anchors": ["prolothar_common/models/eventlog/eventlog.py:EventLog.derive_event_duration_by_end_date"]}
{"id": "C71", "title": "Restricting start and end activities", "statement": "remove_not_allowed_start_activities(allowed) keeps exactly the largest set of activities in which each one is allowed or preceded by another kept one, with all edges between kept activities and their counts; dually for end activities.", "quantifier": "all graphs that can be built, allowed sets and set iteration orders", "why_tests_cant": "The result is a greatest fixed point over all subsets of nodes.", "anchors": ["prolothar_common/models/directly_follows_graph.pyx:DirectlyFollowsGraph.remove_not_allowed_start_activities", "prolothar_common/models/directly_follows_graph.pyx:DirectlyFollowsGraph.remove_not_allowed_end_activities"]}
{"id": "C72", "title": "Generated logs are walks of the graph", "statement": "If generate_log(n) returns, it returns n traces, each a path of the graph from a start activity to an end activity that contains no end activity before its last event; start and end activities default to the sources and sinks. Every non-empty list of such walks is generated for some outcomes of the random choices, with trace ids 0, 1, 2, ... It raises ValueError iff there are no start or no end activities; KeyError only for a start activity that is not in the graph; IndexError only if a walk without end activities runs into an activity without successors; otherwise it can only go on for ever.", "quantifier": "all graphs that can be built, start/end sets and all outcomes of the random choices", "why_tests_cant": "All random outcomes.", "anchors": ["prolothar_common/models/directly_follows_graph.pyx:DirectlyFollowsGraph.generate_log"]}
{"id": "C73", "title": "Eventually-follows counts", "statement": "build_eventually_follows_on_first_occurence_graph(log) has the count of (a, b) equal to the number of traces in which the first a stands before the first b, edges exactly for positive numbers, and exactly the activities of such pairs as nodes; for a log with a trace without events it raises ValueError.", "quantifier": "all logs", "why_tests_cant": "All logs.", "anchors": ["prolothar_common/models/directly_follows_graph.pyx:DirectlyFollowsGraph.build_eventually_follows_on_first_occurence_graph"]}
{"id": "C74", "title": "Graph equality", "statement": "Two graphs whose activities contain no double quotes, backslashes, colons or line breaks and not both < and > compare equal iff they have the same activities and the same edges with the same counts, regardless of how they were built. (For other activities see C122.)", "quantifier": "all pairs of graphs that can be built", "why_tests_cant": "All pairs and insertion orders.", "anchors": ["prolothar_common/models/directly_follows_graph.pyx:DirectlyFollowsGraph.__eq__"]}
{"id": "C75", "title": "Selecting nodes, sources and sinks", "statement": "select_nodes(acts) yields the subgraph induced by the given activities that exist; get_source_activities / get_sink_activities list, each once, exactly the activities without a predecessor / successor other than themselves.", "quantifier": "all graphs that can be built, activity sets and set iteration orders", "why_tests_cant": "All graphs.", "anchors": ["prolothar_common/models/directly_follows_graph.pyx:DirectlyFollowsGraph.select_nodes", "prolothar_common/models/directly_follows_graph.pyx:DirectlyFollowsGraph.get_source_activities", "prolothar_common/models/directly_follows_graph.pyx:DirectlyFollowsGraph.get_sink_activities"]}
{"id": "C76", "title": "Fireable transitions", "statement": "get_fireable_transitions lists, in the order of the transitions, exactly those whose guard accepts (unless guards are ignored) and whose start places hold in total as many tokens as there are start places; on markings with at most one token per place these are exactly the enabled transitions. On other markings it can list a transition that cannot fire and omit one that can. It fails only with an exception of a guard.", "quantifier": "all nets built with the public methods, markings and variable values", "why_tests_cant": "All markings; tests use safe nets only.", "anchors": ["prolothar_common/models/data_petri_net.py:DataPetriNet.get_fireable_transitions"]}
{"id": "C77", "title": "Copying a net", "statement": "copy never fails and has the same places, tokens, connections, transitions and guards, and new variables with the same names and values; guards are not rebound: assigning variables of the copy never changes whether its guards accept.", "quantifier": "all nets built with the public methods and all variable values", "why_tests_cant": "All nets and guard functions.", "anchors": ["prolothar_common/models/data_petri_net.py:DataPetriNet.copy"]}
{"id": "C78", "title": "Trace vectors and trace clustering", "statement": "ActivityOneHotEncoding has one row per trace and one column per activity of the log, with entry 1 exactly when the activity occurs in the trace; clustering a log with any encoder and any algorithm that returns one label per trace puts every trace in exactly one cluster or the outliers: cluster k holds the traces labelled k, in order, and the outliers are the traces with negative labels.", "quantifier": "all logs, encoders, algorithms, set iteration orders", "why_tests_cant": "All logs and all external algorithms.", "anchors": ["prolothar_common/clustering/traces/encoder/activity_one_hot_encoding.py", "prolothar_common/clustering/traces/vector_based_clustering.py"]}
{"id": "C79", "title": "Clustering of activities", "statement": "ActivityKMedoid labels every activity of the log with the first closest of k medoid activities, for the distance 1 - (n(a,b)+n(b,a)+1)/(1+2*max) of different activities, where n counts how often b directly follows a. The distance is symmetric, in [0,1), and 0 only for equal activities or for two activities that follow each other max times in both directions. A log without any directly-follows pair raises ValueError.", "quantifier": "all logs, k, shuffles, set iteration orders", "why_tests_cant": "All logs and random choices.", "anchors": ["prolothar_common/clustering/activities/activity_k_medoid.py"]}
{"id": "C80", "title": "Fuzzy clustering", "statement": "Whenever FuzzyKMedoid.cluster returns, it returns k medoid positions and one membership row per object; the entries are the normalised weights exp(-d/coefficient) towards the medoids, lie in (0,1] and sum to 1. Each returned medoid is the first object with the least sum of dissimilarities to all objects, weighted by the memberships of the round before, and the total weighted dissimilarity is close (numpy.isclose) to that of the round before. For a positive coefficient the search always ends, for n objects within n^k + 2 rounds, whatever the dissimilarities are. With one cluster it ends within three rounds, at the first object with the least total dissimilarity. No exception is raised as long as the weights are positive; when all weights underflow to 0 it raises ZeroDivisionError.", "quantifier": "all object lists, dissimilarities, positive weight functions, k, shuffles, numbers of rounds", "why_tests_cant": "All inputs and numbers of rounds.", "anchors": ["prolothar_common/clustering/fuzzy_k_medoid.py"]}
{"id": "C81", "title": "Data frames of datasets", "statement": "to_dataframe has one row per instance, indexed by its id, holding its value for every attribute; create_from_pandas builds a dataset with one instance per row holding the cells of the named columns, or raises ValueError exactly if an index occurs twice; the round trip restores ids and features.", "quantifier": "all reachable datasets, iteration orders and frames with distinct columns", "why_tests_cant": "All datasets.", "anchors": ["prolothar_common/models/dataset/dataset.py:Dataset.to_dataframe", "prolothar_common/models/dataset/dataset.py:Dataset.create_from_pandas"]}
{"id": "C82", "title": "Attribute selection and transforming a copy", "statement": "SelectAttributes keeps exactly the selected attributes the dataset has; RemoveAttributesWithOneUniqueValue removes exactly the attributes on which all instances (and there are some) agree; kept attributes keep kind and values. transform with inplace=False leaves every existing object as it was and returns a dataset of new instances.", "quantifier": "all reachable datasets and iteration orders", "why_tests_cant": "All datasets and histories.", "anchors": ["prolothar_common/models/dataset/transformer/select_attributes.py", "prolothar_common/models/dataset/transformer/remove_attrs_with_one_value.py", "prolothar_common/models/dataset/transformer/dataset_transformer.py:DatasetTransformer.transform"]}
{"id": "C83", "title": "Guards of data petri nets", "statement": "Comparison guards accept exactly when the current value of their variable stands in the named relation to the constant (True and False count as 1 and 0); with a variable that has no value the order comparisons raise TypeError. A conjunction accepts iff all its guards do, and otherwise does what its first non-accepting guard does.", "quantifier": "all variable values, constants and nested guards", "why_tests_cant": "All values, and all lengths and nestings of conjunctions.", "anchors": ["prolothar_common/models/data_petri_net.py: Guard subclasses, accept"]}
{"id": "C84", "title": "ClassificationDataset counts match the instances", "statement": "After any sequence of constructions, additions and removals of instances' attributes and queries, get_class_count(l) is the number of instances with label l; get_count_for_category(n, v) and get_count_for_category_and_class(n, v, l) are the numbers of instances with that value (and label) among the instances added after the attribute n (all instances for constructor attributes, none for a name that is not categorical). get_set_of_classes lists each label of an instance once, plus every label get_class_count was ever asked for, because the counters are defaultdicts. Sub-datasets count all of their instances.", "quantifier": "all histories of calls, heaps of instances, attribute values, labels, iteration orders of the instance set", "why_tests_cant": "counters are kept incrementally and queries write into them; correctness depends on the whole call history", "anchors": ["prolothar_common/models/dataset/classification_dataset.py: ClassificationDataset.add_instance, remove_attribute, get_count_for_category, get_count_for_category_and_class, get_class_count, get_set_of_classes"]}
{"id": "C85", "title": "Label and symbol sets of MultiLabel-, Multiset- and TargetSequenceDataset", "statement": "The label set of a MultiLabelDataset and the symbol set of a TargetSequenceDataset contain exactly the labels/symbols of the instances that were added; the classes of a MultisetDataset are exactly the elements listed in the multisets of its instances (with count 0 too). Sub-datasets have exactly the labels of their own instances. After set_target_sequence the symbol set still shows the old symbols.", "quantifier": "all histories of calls, all instances, subsets and iteration orders", "why_tests_cant": "sets are maintained incrementally along arbitrary histories", "anchors": ["prolothar_common/models/dataset/multilabel_dataset.py", "prolothar_common/models/dataset/multiset_dataset.py", "prolothar_common/models/dataset/target_sequence_dataset.py: TargetSequenceDataset.add_instance, get_set_of_sequence_symbols"]}
{"id": "C86", "title": "Unique target sequences and their order by frequency", "statement": "compute_set_of_unique_sequences returns each target sequence of an instance exactly once. get_sequences_ordered_by_frequency returns the same sequences, each once, by ascending frequency in the dataset and, for equal frequency, by ascending sum of the frequencies of their events.", "quantifier": "all reachable datasets and iteration orders of the instance set", "why_tests_cant": "must hold for every multiset of sequences and every set iteration order", "anchors": ["prolothar_common/models/dataset/target_sequence_dataset.py: TargetSequenceDataset.compute_set_of_unique_sequences, get_sequences_ordered_by_frequency"]}
{"id": "C87", "title": "Quantile based discretization", "statement": "With nr_of_bins >= 2 and numbers in all numerical attributes, inplace_transform turns every numerical attribute into a categorical one and changes nothing else. If an attribute has more than nr_of_bins different values, each value is replaced by the text of the one interval among [min, c1], (c1, c2], ..., (ck, max] it lies in, where the ascending ci are the nr_of_bins quantiles by linear interpolation; otherwise each value is replaced by its text. With one bin (IndexError) or fewer (ValueError) it fails as soon as an attribute has more different values than bins.", "quantifier": "all reachable datasets, iteration orders, numbers of bins and number formats; exact arithmetic", "why_tests_cant": "interval membership and cut points must be right for every multiset of values", "anchors": ["prolothar_common/models/dataset/transformer/quantile_based_discretization.py: QuantileBasedDiscretization.inplace_transform"]}
{"id": "C88", "title": "Discretization with trained bins", "statement": "Every numerical attribute becomes categorical and nothing else changes. Each value is replaced by the text of the first trained bin (lo, hi] that contains it; a value contained in no bin gets the text of the last bin, also when it is below all bins. A numerical attribute without trained bins raises a KeyError.", "quantifier": "all reachable datasets, iteration orders and non-empty lists of bins (whatever pandas.qcut produced)", "why_tests_cant": "must hold for every value and every list of bins", "anchors": ["prolothar_common/models/dataset/transformer/trainable_q_based_discretization.py: TrainableQuantileBasedDiscretization.inplace_transform"]}
{"id": "C89", "title": "Markings of data petri nets", "statement": "get_marking gives every place exactly once with its number of tokens. set_marking sets exactly the given places (negative numbers are accepted) and changes nothing else; an unknown place raises KeyError, and then the entries before it are set and those behind it are not. matches_marking is true iff every entry names a place with exactly that many tokens; otherwise the first entry that does not agree decides: false if the place exists, KeyError if not. A marking saved with get_marking brings back exactly the same net with set_marking whatever was simulated in between.", "quantifier": "all nets built with the public methods, all markings", "why_tests_cant": "must hold for every net and every marking, including unknown places at any position", "anchors": ["prolothar_common/models/data_petri_net.py: DataPetriNet.get_marking, set_marking, matches_marking"]}
{"id": "C90", "title": "Pruning keeps the behaviour of a petri net", "statement": "prune always succeeds. It removes only invisible unguarded transitions that pass tokens from a place of their own (not a source) to one other place; everything else keeps label, guard, visibility and start places, and afterwards no such transition is left (of those with one end place). If no two end places of a transition become one and no token lies on a place that goes, the firing sequences of the pruned net are exactly those of the net without the removed transitions, with the same markings. Both conditions are needed: tokens on a removed place are lost, and where end places are merged two tokens become one, so that a net may block that did not block before.", "quantifier": "all nets built with the public methods, all iteration orders of the sets, all firing sequences of any length, all values of the variables", "why_tests_cant": "behavioural equivalence quantifies over all firing sequences; the order in which the transitions are visited matters", "anchors": ["prolothar_common/models/data_petri_net.py: DataPetriNet.prune"]}
{"id": "C91", "title": "Universal codes for integers", "statement": "L_N(n) raises ValueError for n < 1. For every positive integer it ends and returns log2(2.8565064) + log2 n + log2 log2 n + ... up to the last positive term. It is positive and strictly increasing in n; the table of the first hundred values that is filled on import changes no result. Over all C ints the lengths satisfy Kraft's inequality (the sum of 2^-L_N(n) over any initial segment is at most 1), so that there is a prefix code with these lengths. What cannot be relied on: over all positive integers Kraft's inequality fails, since the constant is too small; for some (astronomically large) N the sum up to N exceeds 1.", "quantifier": "all integers; for Kraft's inequality all sums up to any N below 2^31, for its failure some N", "why_tests_cant": "termination and monotonicity for every integer and a sum over two billion terms cannot be settled by examples; the constant in the code (2.8565064) is not the constant of the literature (2.865064)", "anchors": ["prolothar_common/mdl_utils.pyx: L_N, _PRECOMPUTED_LN"]}
{"id": "C92", "title": "Code lengths of binomials, compositions and multinomials", "statement": "log2binom(n, k) is the base 2 logarithm of the number of 0/1 words of length n with k ones. L_U(m, n) is the logarithm of the number of ways to write m as an ordered sum of n positive numbers (L_U(0, 0) = 0). log2multinom(n, ks) raises ValueError iff n is not the sum of ks and otherwise is the logarithm of the number of words in which the i-th symbol occurs ks[i] times.", "quantifier": "all 0 <= k <= n, all 1 <= n <= m, all lists of non-negative ks", "why_tests_cant": "relates a closed formula over the gamma function to a count of objects for all sizes", "anchors": ["prolothar_common/mdl_utils.pyx: log2binom, L_U, log2multinom"]}
{"id": "C93", "title": "Prequential code lengths do not depend on the order of the sequence", "statement": "prequential_coding_length(counts, epsilon) is the number of bits needed to send any sequence with these counts symbol by symbol, each with the probability (uses so far + epsilon) / (symbols so far + epsilon * number of symbols). It depends only on the counts and is never negative.", "quantifier": "all alphabets, all sequences over them, all epsilon > 0", "why_tests_cant": "a telescoping sum over sequences of every length and every order", "anchors": ["prolothar_common/mdl_utils.pyx: prequential_coding_length"]}
{"id": "C94", "title": "Cached logarithms, sums of logarithms and codes of real numbers", "statement": "cached_lgamma(x) is lgamma(x) whatever was asked before and whatever the cache has dropped. sum_log_i_from_1_to_n(n) is log2 1 + ... + log2 n for n >= 1 (with or without the table) and ValueError otherwise. L_R(x) never raises and L_R(-x) = L_R(x); L_R(0) = log2 3; otherwise it is 2 log2 3 plus the code lengths of the shift and of an integer from which |x| can be restored with a relative error below 10^-precision. For precision <= 8 and |x| <= 2^31 - 1 that integer is a C int.", "quantifier": "all call histories and cache evictions, all integers n, all real numbers x, all precisions", "why_tests_cant": "must hold for every history of calls and every real number", "anchors": ["prolothar_common/mdl_utils.pyx: cached_lgamma, sum_log_i_from_1_to_n, L_R"]}
{"id": "C95", "title": "Activity patterns: construction, markings, copies and pruning", "statement": "The constructor keeps a workflow net, makes other nets one with transform_to_workflow_net, and raises ValueError exactly if a visible transition has no activity name or that transformation fails; given one name it names all transitions so. However a pattern was made, it has at most one source and one sink, and every visible transition has an activity name. The standard initial (final) marking has one token, on the source (sink), and an entry for every place; without source (sink) it is a KeyError. A copy has the same places, transitions, names and words. prune never fails, keeps source and sink, forgets exactly the names of removed transitions, and keeps the language unless end places of a transition are merged.", "quantifier": "all nets built with the public methods, all names, all patterns made by any nesting of constructor, copy and compositions, all iteration orders of sets", "why_tests_cant": "ranges over all nets and all ways of composing patterns; language equality ranges over all firing sequences", "anchors": ["prolothar_common/models/activity_pattern.py: ActivityPattern.__init__, get_standard_initial_marking, get_standard_final_marking, copy, prune"]}
{"id": "C96", "title": "When compositions of activity patterns succeed", "statement": "sequence, choice, parallel and interleaving of two patterns raise KeyError exactly if one of them lacks a source or a sink, and otherwise either give a workflow net or raise ValueError because a generated id is taken. A repetition of a pattern with source and sink always succeeds. With ids without commas sequence and choice always succeed, parallel if the source id is not also a transition id, interleaving if no id ends with an underscore. In general nesting is not safe: with patterns that share ids, sequences and parallel nets can be nested to the left but nesting to the right raises ValueError.", "quantifier": "all patterns made by any nesting of constructor, copy and compositions, all iteration orders of sets", "why_tests_cant": "id clashes depend on every combination of ids in arbitrarily nested patterns", "anchors": ["prolothar_common/models/activity_pattern.py: ActivityPattern.sequence, choice, parallel, interleaving, unbounded_repetition"]}
{"id": "C97", "title": "Words of composed activity patterns", "statement": "The words (activity sequences of complete runs from the source marking to the sink marking) of a choice are the words of both patterns, of a parallel net all interleavings of their words, of a sequence the concatenations (if the first pattern never has two tokens on its sink), of a repetition one or more words in a row (if nothing is left behind when a token reaches the sink). For any nesting of these over leaves that leave nothing behind, the words are exactly those the nesting should have, and again nothing is left behind. Both side conditions are needed: without them a sequence of two patterns without any word can have one.", "quantifier": "all patterns made by any nesting of constructor, copy and compositions, all runs of any length, all words, all variable values", "why_tests_cant": "language equality over all runs of unbounded length and all nestings", "anchors": ["prolothar_common/models/activity_pattern.py: ActivityPattern.sequence, choice, parallel, unbounded_repetition"]}
{"id": "C98", "title": "Interleavings of activity patterns", "statement": "No run of an interleaving ends with a single token on its sink: its language of complete runs is empty, since a token stays behind. The words with which a token comes to its sink are all the interleavings of such words of both patterns, so the two patterns do not exclude one another: activities of one come between those of the other, so the extra place of the construction does not have the effect that its connections suggest (one pattern at a time).", "quantifier": "all patterns, all runs of any length, all words", "why_tests_cant": "the absence of complete runs and the set of reachable words quantify over all runs", "anchors": ["prolothar_common/models/activity_pattern.py: ActivityPattern.interleaving"]}
{"id": "C99", "title": "Choices of a list of activity patterns", "statement": "The choice of no pattern or of one pattern raises ValueError; if a pattern has no source or no sink there is a KeyError. For patterns none of whose place ids is another of its place ids with apostrophes, the result is a workflow net or a ValueError (never the latter for two or more patterns without commas in their ids), its words are exactly the words of the patterns, and nothing is left behind if the patterns leave nothing behind. Without that condition (met by every pattern that is not a repetition or composition with shared ids) it can raise ValueError where the binary choice succeeds, or silently return a net in which transitions lead to a place that the net does not have.", "quantifier": "all lists of patterns made by any nesting of constructor, copy and compositions, all runs and words", "why_tests_cant": "id renaming over arbitrarily many nets and language equality over all runs", "anchors": ["prolothar_common/models/activity_pattern.py: ActivityPattern.choice_list"]}
{"id": "C100", "title": "Event logs as tables", "statement": "If all traces carry the same attribute names and all events carry the same attribute names, to_pandas_df gives one row per event in log order, with the trace id (if wanted), the trace attributes, the activity and the event attributes each below its own name. A log whose first trace has no event raises IndexError, and a log with an event that has, together with its trace, more attributes than the first raises ValueError. Otherwise there is a table, but with different attributes values can be below the wrong name.", "quantifier": "all logs, all attribute names and values", "why_tests_cant": "ranges over all logs and all combinations of attributes of traces and events", "anchors": ["prolothar_common/models/eventlog/eventlog.py: EventLog.to_pandas_df"]}
{"id": "C101", "title": "Event logs from tables", "statement": "create_from_pandas_df gives one trace per different non-missing value of the case column, in ascending order; its events are the rows of that case in their order with the activity and attributes of the row (missing attributes left out if so wanted), its attributes those of its first row. A missing case column is a KeyError, a repeated one a ValueError, an unreadable column (missing, the case column itself, or no identifier) an AttributeError unless there is no case. Reading back the table of a log with uniform attributes and different ids gives the same traces in ascending order of ids. Traces with equal ids are merged.", "quantifier": "all tables, all column names, all logs with uniform attributes", "why_tests_cant": "ranges over all tables and all interleavings of the rows of cases", "anchors": ["prolothar_common/models/eventlog/eventlog.py: EventLog.create_from_pandas_df", "prolothar_common/models/eventlog/eventlog.py: EventLog.to_pandas_df"]}
{"id": "C102", "title": "Statistics of activities", "statement": "For logs with uniform attributes, non-empty traces and no missing ids the table of activity statistics has exactly one row per activity that occurs, in ascending order: support is the number of its events, traces the number of different trace ids it occurs with, and frequency, P(a|start), P(a|end), P(start|a), P(end|a) are these counts divided by the number of events, of traces, and the support; frequency, P(a|start) and P(a|end) each sum up to 1. A log that is empty or has an empty trace raises IndexError. With non-uniform attributes the table can list an activity that never occurs.", "quantifier": "all logs, all attributes, trace ids taken from the trace or from an attribute", "why_tests_cant": "ranges over all logs; the sums are over arbitrarily many activities", "anchors": ["prolothar_common/models/log_statistics.py: compute_activity_statistics_df"]}
{"id": "C103", "title": "Variants and trace statistics", "statement": "The variant table has one row per different activity sequence with the number of its traces, which sum up to the number of traces; the names of rows differ if no trace is empty and no activity contains the separator, else they can coincide. The trace statistics are the number of traces, the number of different activity sequences, and minimum, average and maximum of the lengths; an empty log raises ValueError.", "quantifier": "all logs with activity names that are strings", "why_tests_cant": "ranges over all logs and all activity names", "anchors": ["prolothar_common/models/log_statistics.py: compute_variant_statistics_df", "prolothar_common/models/log_statistics.py: compute_trace_statistics"]}
{"id": "C104", "title": "Event logs as csv files", "statement": "The csv file is the header line followed by one line per event, in order, with the number of its trace, the separator and the activity. If the separator does not begin with a digit and no activity contains a line break, two logs with the same file have the same activities in the same traces. With line breaks different logs can have the same file.", "quantifier": "all logs, column names and separators", "why_tests_cant": "injectivity is about all pairs of logs", "anchors": ["prolothar_common/models/eventlog/eventlog.py: EventLog.write_to_csv"]}
{"id": "C105", "title": "Datasets as ARFF files", "statement": "export_to_arff writes the header with all attributes in order (the different values of the categorical ones sorted) and one line per instance in the order of iteration. create_from_arff of any file in this format, dense or sparse, gives the attributes in order and instances numbered from 0 with the values of their lines; whatever it reads, every instance has exactly the attributes of the dataset. So a dataset whose names and values contain no blanks, quotation marks or line breaks is read back with the same attributes and the same values as text. A name or categorical value with a blank makes the file unreadable (ValueError), and a dataset without attributes is read back without instances. Writing what was read gives the same text if the values are sorted as their texts are, else possibly not. Two such datasets are equal iff names, categories and the lines in order agree; the same instances in another order are not equal.", "quantifier": "all histories of datasets, all values and their texts, all iteration orders, all files", "why_tests_cant": "round trips have to hold for all names, values and numbers of instances", "anchors": ["prolothar_common/models/dataset/dataset.py: Dataset.export_to_arff", "prolothar_common/models/dataset/dataset.py: Dataset._add_attributes_definition_to_arff", "prolothar_common/models/dataset/dataset.py: Dataset._add_instance_to_arff", "prolothar_common/models/dataset/dataset.py: Dataset.create_from_arff", "prolothar_common/models/dataset/dataset.py: Dataset.__parse_arff_instance", "prolothar_common/models/dataset/dataset.py: Dataset.__eq__"]}
{"id": "C106", "title": "Datasets with a target as ARFF files", "statement": "The file of a ClassificationDataset, read by create_from_arff, has the class as a further categorical attribute. A MultiLabelDataset, MultisetDataset or TargetSequenceDataset is read back with the same attributes, the values as text and the same target: the same labels with the prefix in front, the same count for every class with the prefix in front, the same sequence if the separator is a comma and the sequence not empty. This holds for any order in which sets are iterated. With another separator, like the default, every sequence becomes a single symbol; an empty sequence becomes one empty symbol. Without labels, or without other attributes, the file of a dataset with instances cannot be read (IndexError). Any well-formed file, with full or sparse rows, is read the same way: an instance has exactly those of the given attributes as labels whose value is 1, or the counts its row has for them, and the other attributes as features. A given attribute that the file with labels does not have is a KeyError if there are rows.", "quantifier": "all histories of datasets with plain names and values, all targets, all iteration orders of sets, all well-formed files", "why_tests_cant": "round trips have to hold for all names, values, targets and set orders", "anchors": ["prolothar_common/models/dataset/classification_dataset.py: ClassificationDataset._add_instance_to_arff", "prolothar_common/models/dataset/multilabel_dataset.py: MultiLabelDataset.create_from_arff, _add_instance_to_arff", "prolothar_common/models/dataset/multiset_dataset.py: MultisetDataset.create_from_arff, _add_instance_to_arff", "prolothar_common/models/dataset/target_sequence_dataset.py: TargetSequenceDataset.create_from_arff, _add_instance_to_arff"]}
{"id": "C107", "title": "Petri nets handed to pm4py", "statement": "For every net that can be built, convert_data_petri_net_to_pm4py succeeds and gives a pm4py net without weights and parallel arcs, with every place and transition under its name (with p or t in front), the label of visible transitions, an initial marking with one token on every source and a final marking with one token on every sink, and an arc for every start and end place of each transition with places on both sides. Converted back, such a net has the same places, transitions, arcs, labels and visibility, and without guards it has the same firing sequences from corresponding markings. Guards, variables, labels of invisible transitions and current tokens are lost. A transition with places on one side only loses its arcs, and one that bears the name of a place it both consumes from and produces to loses one of these two arcs.", "quantifier": "all nets built with the public methods, all iteration orders of sets, all markings and firing sequences", "why_tests_cant": "structure and behaviour have to be kept for every net, every set order and firing sequences of any length", "anchors": ["prolothar_common/pm4py_utils.py: convert_data_petri_net_to_pm4py", "prolothar_common/pm4py_utils.py: convert_pm4py_to_data_petri_net"]}
{"id": "C108", "title": "Petri nets taken over from pm4py", "statement": "convert_pm4py_to_data_petri_net succeeds if no two places and no two transitions have the same name and no place of the initial marking has a negative number of tokens, and raises a ValueError otherwise. The result has the places with the tokens of the initial marking, the transitions with their labels (invisible ones, labelled with their name, if there is no label), no guards, no variables and an arc exactly where the pm4py net has one. If the pm4py net has no weights and no parallel arcs, its firing sequences and those of the result are the same; with weights they are not.", "quantifier": "all pm4py nets whose arcs connect nodes of the net, all initial markings, all markings and firing sequences", "why_tests_cant": "behaviour has to be kept for every net and firing sequences of any length", "anchors": ["prolothar_common/pm4py_utils.py: convert_pm4py_to_data_petri_net"]}
{"id": "C109", "title": "Event logs handed to pm4py and taken over from it", "statement": "convert_eventlog_to_pm4py keeps the order of traces and events, the activities as attribute concept:name of the events, and the trace attributes, with the id as additional attribute concept:name unless the trace has an attribute of that name; all other attributes of events are dropped. convert_pm4py_log reads id and activities from the chosen attributes and keeps all attributes; the first trace that lacks its id or an activity (KeyError), has an activity that is no string (TypeError) or has no events (ValueError) makes it fail, and nothing else does. So a log without empty traces comes back with the same activities, and a second round trip changes nothing, but the log that comes back is in general not equal to the original one.", "quantifier": "all event logs, all pm4py logs, all choices of the two attributes", "why_tests_cant": "has to hold for all logs, attribute names and values, and for the first of many faulty traces", "anchors": ["prolothar_common/pm4py_utils.py: convert_eventlog_to_pm4py", "prolothar_common/pm4py_utils.py: convert_trace_to_pm4py", "prolothar_common/pm4py_utils.py: convert_pm4py_log"]}
{"id": "C110", "title": "The text files of a result collector hold what was added", "statement": "After any sequence of add_result, set_color and set_marker calls, save_plots succeeds and appends to the text file of each result type one entry for each miner that has the most points of all miners of this type, in the order in which the miners first had a result. In line mode, an entry lists the different x in ascending order and for each of them the mean, minimum, maximum and number of exactly the values added for this type, miner and x, and standard deviation and standard error (here: their squares) for each x with more than one value. In scatter mode, it lists every value with its x. A string as x stands for its position among the strings in the order of their first use, so different strings have different x, but a string and an int can have the same x. Miners with fewer points than another miner are left out. The order in which Python lists a set does not matter.", "quantifier": "all sequences of fewer than 2^63 results, all orders of set iteration, both plot modes", "why_tests_cant": "has to hold for every history of calls and any mixture of miners, result types, ints and labels", "anchors": ["prolothar_common/experiments/result_collector.py: ResultCollector.add_result", "prolothar_common/experiments/result_collector.py: ResultCollector.save_plots", "prolothar_common/experiments/result_collector.py: PlotMode._plot_values_for_miners", "prolothar_common/experiments/result_collector.py: _LinePlotMode", "prolothar_common/experiments/result_collector.py: _ScatterPlotMode"]}
{"id": "C111", "title": "The figures of a result collector show what was added", "statement": "save_plots saves for each result type a figure with and without legend, and in line mode, if some x has more than one value, each of these also with standard deviations and with standard errors. Every figure has a column for each miner with the most points, with its means in ascending order of x, or all its values; bars, if any, at each x with more than one value, around the mean, in the color that the list of colors has at the position of the miner, beside each other without meeting and symmetric around x for all numbers of miners; a tick for each label; and the y axis from 0 to 1 if and only if all shown values are in this range. The file names of the figures differ if no result type is the beginning of another one. If no miner is left out, or only the last one and no other has its color, each miner has its color and marker. If another miner is left out, the remaining miners get colors of others; the x axis is that of the first miner also for miners with as many but other x; and the figures of types like a and a_with_legend overwrite each other.", "quantifier": "all sequences of fewer than 2^63 results, colors and markers, all orders of set iteration, both plot modes, all numbers of miners", "why_tests_cant": "has to hold for every history of calls, any number of miners and any choice of names", "anchors": ["prolothar_common/experiments/result_collector.py: ResultCollector.save_plots", "prolothar_common/experiments/result_collector.py: ResultCollector.__get_plot_data", "prolothar_common/experiments/result_collector.py: PlotMode._plot_values_for_miners", "prolothar_common/experiments/result_collector.py: PlotMode.__get_x_of_bar"]}
{"id": "C112", "title": "Event logs made from datasets with target sequences", "statement": "For every dataset reached by any history of operations, the conversion to an event log gives one trace per instance, in the order in which the dataset lists its instances, with the id of the instance, the target sequence as activities, no event attributes and no transition names, and the features of the instance as trace attributes; no two traces have the same id. It raises a ValueError if and only if some instance has an empty target sequence. The trace attributes are not a copy: whatever happens to the features of the instance afterwards is seen in the trace, for example an attribute removed from the dataset disappears from all traces. A log made from a copy of the dataset is not affected by changes of the instances of the original.", "quantifier": "all histories of dataset operations, all orders of set iteration, all later changes of the objects", "why_tests_cant": "has to hold for every history of the dataset and every later change", "anchors": ["prolothar_common/models/converter/dataset_to_eventlog_converter.py: convert", "prolothar_common/models/eventlog/trace.pyx: Trace.__init__", "prolothar_common/models/dataset/instance.pyx: Instance.get_features_dict"]}
{"id": "C113", "title": "Progress bars show the progress", "statement": "For all 0 <= iteration <= total with total > 0, the text printed consists of a carriage return, the prefix, a bar between two vertical strokes, the percentage 100 * iteration / total with the chosen number of decimals, the suffix and a carriage return. The bar has exactly the chosen length, its filled part is the largest whole number of characters that does not exceed its share, it never shrinks as the iteration grows, it is full exactly at the end. A loop from 0 to n prints exactly one line break, at its end. total = 0 raises a ZeroDivisionError and negative decimals a ValueError. Beyond the total the bar grows longer than its length.", "quantifier": "all iterations, totals, lengths, decimals, prefixes, suffixes and fill characters", "why_tests_cant": "has to hold for every total, length and iteration", "anchors": ["prolothar_common/console_utils.py: print_progress_bar"]}
{"id": "C114", "title": "Silencing the output", "statement": "For every program that prints, raises and catches exceptions and uses nullify_output in any nesting, exactly the texts outside of all suppressing blocks for the respective stream are seen, in order, the same exceptions are raised, and afterwards sys.stdout and sys.stderr are what they were and all opened null streams are closed. Also if the block replaces a suppressed stream itself, it is restored. Blocks that overlap without being nested leave a closed stream as sys.stdout.", "quantifier": "all programs, all nestings and all places of exceptions", "why_tests_cant": "has to hold for every nesting and every place where an exception can occur", "anchors": ["prolothar_common/console_utils.py: nullify_output"]}
{"id": "C115", "title": "Timeouts", "statement": "For every function with the timeout decorator and every interleaving of the main thread and the timer: if the function ends and the timer is cancelled before the interval is over, the call ends as the function ends and nobody is interrupted, then or ever later. There is at most one interrupt. If the function does not handle KeyboardInterrupt, the call ends as the function ends or with a KeyboardInterrupt after the time was over, and after the interrupt it is over within three steps, with a KeyboardInterrupt if the function never ends by itself. No timer is left armed. A function that handles the interrupt can run for ever; a function that has already returned can lose its result to the interrupt; and the interrupt can hit the caller after the call has returned.", "quantifier": "all functions (state machines), all schedules of main thread, clock and timer thread", "why_tests_cant": "depends on the interleaving of two threads", "anchors": ["prolothar_common/timeout.py: timeout", "prolothar_common/timeout.py: quit_function"]}
{"id": "C116", "title": "Plot contexts save, log and close", "statement": "For every program that uses PlotContext in with blocks, nested and one after the other, draws on the axes of any enclosing context, raises and catches exceptions: each context with a file path saves exactly one file at its end, also if the block raises, and the file shows what was drawn on the axes of this context until then and nothing of other contexts; its log file has one line for each call of plot, legend, hist, bar and scatter in order, also for a call that raises, followed by the logged methods that matplotlib calls itself, and is closed; exceptions of the block are passed on; and pyplot knows the same figures as before. A context that shows its figure shows this figure only if pyplot knows no other. The context works on the current figure of pyplot: with another figure made or closed in the block it closes or leaves over the wrong one, and a nested context that is shown also shows the figure around it. If the figure cannot be saved, the log file stays open and the figure is not closed.", "quantifier": "all programs with with blocks, all nestings, all places of exceptions, all figures pyplot knows before", "why_tests_cant": "has to hold for every nesting and every place where an exception can occur", "anchors": ["prolothar_common/experiments/plots/plot_context.py: _BasePlotContext.__enter__", "prolothar_common/experiments/plots/plot_context.py: _BasePlotContext.__exit__", "prolothar_common/experiments/plots/plot_context.py: PlotContext"]}
{"id": "C117", "title": "Grids of subplots", "statement": "For every positive number of rows and columns, get_axes(row, column) of a GridPlotContext gives the subplot in that row and column, negative indices count from the end, other indices raise an IndexError, and get_list_of_axes lists every subplot exactly once row by row; also if there is only one row or only one column. Other numbers of rows or columns raise a ValueError.", "quantifier": "all numbers of rows and columns and all indices", "why_tests_cant": "has to hold for every size, among them those for which matplotlib leaves out dimensions", "anchors": ["prolothar_common/experiments/plots/plot_context.py: GridPlotContext"]}
{"id": "C118", "title": "Histograms show frequencies", "statement": "For every non-empty collection of values, plot_counts draws exactly one bar for each different value, as high as the value is frequent, so that the heights sum up to the number of values; sorted by value, or by ascending or descending frequency, where equally frequent values keep the order in which they first occur. An empty collection or an unknown order raises a ValueError. plot_histogram without a number of bins uses the largest number of bins whose square does not exceed the number of values; an empty collection then raises a ValueError, as does a negative number of bins.", "quantifier": "all collections of values, all orders, all numbers of bins", "why_tests_cant": "has to hold for every collection", "anchors": ["prolothar_common/experiments/plots/histogram.py: plot_counts", "prolothar_common/experiments/plots/histogram.py: plot_histogram"]}
{"id": "C119", "title": "Heatmaps show the data", "statement": "plot_heatmap succeeds exactly if the data has as many rows and columns as there are labels, else it raises a ValueError; it then puts the label of each column and row at the position of this column and row, draws grid lines around every cell and shows a color bar exactly if wanted. annotate_heatmap writes exactly one text into each cell, at the column and row of its value, row by row, in the second color exactly if the value is greater than the threshold. Without a threshold this is the middle between the lower end of the color range and the largest value. If the color range has only one value, all texts have the first color. A list as data raises an AttributeError, an array without cells and without threshold a ValueError.", "quantifier": "all arrays, labels, color ranges, thresholds and formats", "why_tests_cant": "has to hold for every array and every threshold", "anchors": ["prolothar_common/experiments/plots/heatmap.py: plot_heatmap", "prolothar_common/experiments/plots/heatmap.py: annotate_heatmap"]}
{"id": "C120", "title": "Min is smaller than everything", "statement": "For every total order of values, all comparisons between Min and values (==, <, <=, >, >=, with Min on either side) agree with one total order in which Min is the least element. Sorting with Min in place of None puts all Nones first and sorts the other values. Two different objects of the class of Min would each be smaller than the other.", "quantifier": "all totally ordered types of values and all lists", "why_tests_cant": "has to hold for every list and every type of values", "anchors": ["prolothar_common/func_tools.py: Min", "prolothar_common/models/labeled_transition_system/labeled_transition_system.py: LabeledTransitionSystem.plot"]}
{"id": "C121", "title": "Light and dark colors", "statement": "A color is light exactly if 299 r^2 + 587 g^2 + 114 b^2 > 16256250; increasing a component never makes a light color dark, a grey is light exactly from 128 on, and anything other than three components raises a ValueError.", "quantifier": "all colors", "why_tests_cant": "has to hold for every color", "anchors": ["prolothar_common/color_utils.py: is_light_or_dark_rgb"]}
{"id": "C122", "title": "Graphs are compared by their drawings", "statement": "Two directly-follows graphs are == exactly if the texts of their drawings are equal. Graphs with the same activities, edges and counts always have the same text, however they were built. Conversely, if the activities of both graphs contain no double quotes, backslashes, colons or line breaks and not both < and >, equal texts mean the same activities, edges and counts. Without this condition different graphs can be equal: an edge from 'a' and one from 'a:' look the same, and so do a quotation mark with and one without a backslash before it.", "quantifier": "all pairs of graphs and all activities, down to single characters", "why_tests_cant": "has to hold for all names of activities, among them those that graphviz quotes or takes for numbers, keywords or HTML", "anchors": ["prolothar_common/models/directly_follows_graph.pyx: DirectlyFollowsGraph.__eq__", "prolothar_common/models/directly_follows_graph.pyx: DirectlyFollowsGraph.__repr__", "prolothar_common/models/directly_follows_graph.pyx: DirectlyFollowsGraph.plot", "prolothar_common/gviz_utils.py: plot_graph"]}
{"id": "C123", "title": "Drawings of directly-follows graphs", "statement": "The drawing of a graph has exactly one node for each activity and exactly one edge for each edge of the graph, labelled with its count if counts are shown and not labelled else. If counts determine the line widths and are not all equal, widths lie between the wanted minimum, reached by the smallest count, and the wanted maximum, reached by the largest count, and never decrease with the count; if all counts are equal, or widths are not wanted, they are 1. Activities with a colon: the edge is drawn at another node.", "quantifier": "all graphs, all options, all ranges of widths", "why_tests_cant": "has to hold for every graph and every range", "anchors": ["prolothar_common/models/directly_follows_graph.pyx: DirectlyFollowsGraph.plot"]}
{"id": "C124", "title": "Rows of activities from the sources on", "statement": "With use_topological_order, the drawing of a graph puts activities into rows of equal rank: row i has exactly the activities whose shortest path from any source has i edges, where a source is an activity that no other activity precedes; every row has at least one activity and none twice. Exactly the activities that some source leads to are in a row; an activity that no source leads to, for example one on a cycle that nothing leads into, is in none and gets no node statement. Nodes within a row are in ascending order, and edges are drawn as without rows. Both kinds of rows at once raise NotImplementedError.", "quantifier": "all graphs, cycles included, and all orders in which edges are removed", "why_tests_cant": "has to hold for all graphs, whatever cycles they have", "anchors": ["prolothar_common/models/directly_follows_graph.pyx: DirectlyFollowsGraph.plot", "prolothar_common/models/directly_follows_graph.pyx: DirectlyFollowsGraph.__compute_topological_order_node_groups"]}
{"id": "C125", "title": "Drawings of transition systems", "statement": "The drawing of a transition system has exactly one node for each state, with two border lines exactly for end states, and exactly one edge for each transition, from the node of its state to the node of its next state, labelled with its event; different states have nodes of different names. This works for every transition system of sequences, whatever the representation function and the order in which states are sorted. A transition from or to something that is not a state raises a KeyError.", "quantifier": "all transition systems, all orders of states, all labels", "why_tests_cant": "has to hold for every transition system and every sort order", "anchors": ["prolothar_common/models/labeled_transition_system/labeled_transition_system.py: LabeledTransitionSystem.plot"]}
{"id": "C126", "title": "Drawings of prefix trees", "statement": "The drawing of a prefix tree has exactly one node for each non-empty prefix of the appended sequences, labelled with its last symbol and the number of sequences that start with it, and exactly one edge from each non-empty prefix to each prefix that is one symbol longer, labelled with the number of sequences of the longer one. Names of nodes are unique. The root is not drawn.", "quantifier": "all lists of sequences over any totally ordered symbols", "why_tests_cant": "has to hold for every tree", "anchors": ["prolothar_common/models/prefix_tree/prefix_tree.py: PrefixTree.plot"]}
{"id": "C127", "title": "Drawings of petri nets", "statement": "The drawing of a data petri net has exactly one node for each place, labelled with its number of tokens or with nothing if it has none, and exactly one for each transition; invisible transitions are filled, and black unless labels are wanted. It has exactly one edge for each arc and no other, between the nodes of its place and its transition. Nodes of places and transitions never have the same name, even if they have the same id. If ids contain no colon or other special characters, the text of an edge names its nodes as their own text does; behind a colon, an edge is drawn at another node.", "quantifier": "all nets that can be built, all orders of sets of places", "why_tests_cant": "has to hold for every net and every id", "anchors": ["prolothar_common/models/data_petri_net.py: DataPetriNet.plot"]}
{"id": "C128", "title": "Rows by random walks", "statement": "With random_walk_alignment=(start, end, n), the drawing of a graph puts each activity into exactly one row: there are n walks along edges from start that visit nothing twice and stop at end or where nothing new is ahead, and the row of an activity is the average number of steps after which the walks that reached it did so, rounded to the nearest integer (halves to even ones); 0 for the start and for activities that no walk reached. Rows come in ascending order, as do the nodes within a row, and edges are drawn as without rows. An unknown start raises a KeyError.", "quantifier": "all graphs, all starts, ends and numbers of walks, all random choices", "why_tests_cant": "has to hold for every random choice", "anchors": ["prolothar_common/models/directly_follows_graph.pyx: DirectlyFollowsGraph.plot", "prolothar_common/models/directly_follows_graph.pyx: DirectlyFollowsGraph.__compute_random_walk_based_node_groups", "prolothar_common/models/directly_follows_graph.pyx: DirectlyFollowsGraph.__do_random_walk"]}
{"id": "C129", "title": "Lists of the ray engine", "statement": "map on a list of the ray engine returns the results in the order of the list, in whatever order the tasks run and finish; if the function raises for some elements, map raises the exception of one of them. map_filter returns the mapped elements that pass the filter, in the order of the list; otherwise it raises the exception of the first element for which the mapped function or the filter raises. map_reduce reduces the mapped elements from left to right, so the reducing function need be neither associative nor commutative. No schedule runs forever and none gets stuck before there is a result.", "quantifier": "all lists, all functions including raising ones, all orders in which tasks run and finish", "why_tests_cant": "has to hold for every schedule of the tasks", "anchors": ["prolothar_common/parallel/ray/partitionable/ray_partitionable_list.py: RayPartitionableList.map", "prolothar_common/parallel/ray/partitionable/ray_partitionable_list.py: RayPartitionableList.map_filter", "prolothar_common/parallel/ray/partitionable/ray_partitionable_list.py: RayPartitionableList.map_reduce"]}
{"id": "C130", "title": "Suffix trees", "statement": "The suffix tree of a non-empty word without the terminator $ has exactly one leaf for each suffix, the empty one included, and exactly one further node for each non-empty word that is followed by different symbols (or the end) at different places. Its nodes other than the root are numbered 1, 2, ... without gaps and there are at most twice as many as the word has symbols. total_descendants of an inner node is the number of places where its word stands plus the number of longer words that start with it and are followed by different symbols. There is one edge text for each node; it is not empty and stands in the word. A terminator at the end is not added again; an empty word raises an IndexError. What node_word and total_descendants answer does not depend on what was asked before.", "quantifier": "all words over any alphabet", "why_tests_cant": "has to hold for every word, however repetitive", "anchors": ["prolothar_common/models/suffix_tree.py: SuffixTree", "prolothar_common/models/suffix_tree.py: SuffixTree.node_word", "prolothar_common/models/suffix_tree.py: SuffixTree.total_descendants", "prolothar_common/models/suffix_tree.py: SuffixTree.print_edges"]}
{"id": "C131", "title": "Statistics of continuous attributes", "statement": "If all traces have the same attributes and all events have the same attributes, compute_activity_statistics_df with continuous_event_attributes returns the table it returns without them, extended for each given attribute (once, even if it is given twice) by the least, the greatest and the average value among the events with the activity of the row; events whose value is missing do not count, and if all are missing the three entries are NaN. A name that is no attribute raises a KeyError.", "quantifier": "all logs with uniform attributes, all lists of attribute names", "why_tests_cant": "has to hold for every log and every distribution of missing values", "anchors": ["prolothar_common/models/log_statistics.py: LogStatistics.compute_activity_statistics_df"]}
{"id": "C132", "title": "Processes that share a cache file", "statement": "Several processes may call a cached function with the same cache file at the same time. If the function always returns the same result and no process is killed, then whenever no process is writing the file it is absent or complete, and it exists once any call has ended. A call returns the result, or it has read a file in which only some bytes were written yet and returns or raises what unpickling makes of them. Once the file is complete and no call that missed it is still busy, every call that starts returns the result. Every call ends. A single process behaves as without concurrency. Processes may also be killed at any point: the calls of the others still return the result or what unpickling makes of an incomplete file, and all of them still end; if none is killed while it writes, the file is absent or complete whenever no process is writing it; and if the last call that opens the file for writing is not killed, the file is complete when it returns. Whatever the functions of the processes return or raise, every call ends, with the exception or result of its own function or with what unpickling makes of the bytes it has read. What cannot be relied on: a call that overlaps the first ones can return a wrong result although the function is pure, and if the results of the calls differ the file can be a mixture of two results; a process that is killed while it writes can leave a file that makes every later call raise.", "quantifier": "all numbers of processes, all interleavings of their file operations, all points at which processes are killed, all sizes of the pieces read and written, all pickle formats", "why_tests_cant": "ranges over all schedules of the processes", "anchors": ["prolothar_common/testing/non_productive_result_cache.py: non_productive_result_cache"]}
{"id": "C133", "title": "Equal-sized buckets", "statement": "If all instances have different values of a numerical attribute and there are more instances than bins (at least two), quantile based discretization divides the instances into as many groups as bins; all instances of a group get the same text, all values of a group are smaller than those of the next one, and the sizes of the groups differ by at most one: they are (N-1)//bins or one more for N instances. Different groups have different texts if the texts of different numbers differ and contain no comma.", "quantifier": "all datasets reached by any history of operations, all numbers of bins, all numbers as values", "why_tests_cant": "has to hold for every distribution of the values", "anchors": ["prolothar_common/models/dataset/transformer/quantile_based_discretization.py: QuantileBasedDiscretization"]}
{"id": "C134", "title": "Training of bins", "statement": "train learns for each numerical attribute with at least two different values between one and nr_of_bins bins; they are contiguous, their edges are the different quantiles i/nr_of_bins of the values, rounded, and the first edge is lowered by one unit of the last digit. When the data the bins were learned from is transformed, no value lies below its bin, so none is put into the last bin by mistake. If edges are not rounded and all instances have different values, the sizes of the bins differ by at most one. With the rounding to three digits they can differ much more: of eleven instances with different values one can be in the first and ten in the second of two bins.", "quantifier": "all datasets reached by any history of operations, all numbers of bins, all ways of rounding that change the least value by less than the unit", "why_tests_cant": "has to hold for every distribution of the values and every rounding of the edges", "anchors": ["prolothar_common/models/dataset/transformer/trainable_q_based_discretization.py: TrainableQuantileBasedDiscretization.train", "prolothar_common/models/dataset/transformer/trainable_q_based_discretization.py: TrainableQuantileBasedDiscretization"]}
{"id": "C135", "title": "Looking up nodes and edges of nested graphs", "statement": "After any sequence of add_node, add_edge and remove_edge the graph holds exactly the nodes that were added last under their id, and exactly the edges that were added and not removed since, where of equal edges the first stays. get_node_by_id gives the node added last under the id and raises KeyError if there was none; get_nodes_by_label gives each node with the label once, in the order in which the ids came into the graph; get_edge_by_source_and_target gives an edge between the two nodes and raises ValueError exactly if there is none, but which of several edges between the two it gives is left to the order of the set; remove_edge raises KeyError exactly if no equal edge is there. Children, ingoing and outgoing edges and the nodes without ingoing or without outgoing edges are those the history implies.", "quantifier": "all sequences of calls, all ids, labels and attributes, all orders in which the set of edges is iterated", "why_tests_cant": "ranges over all histories of a graph", "anchors": ["prolothar_common/models/nested_graph.py: NestedGraph.get_node_by_id", "prolothar_common/models/nested_graph.py: NestedGraph.get_nodes_by_label", "prolothar_common/models/nested_graph.py: NestedGraph.get_edge_by_source_and_target", "prolothar_common/models/nested_graph.py: NestedGraph.remove_edge", "prolothar_common/models/nested_graph.py: NestedGraph.get_children", "prolothar_common/models/nested_graph.py: NestedGraph.get_source_nodes"]}
{"id": "C136", "title": "Methods that change a log change its objects", "statement": "cut_traces, filter_activities, add_start_activity_to_every_trace, add_end_activity_to_every_trace, keep_first_occurence_of_activity_only and the noise generators do to a log whose traces are different objects with lists of their own what they are documented to do to its content, also if event objects are shared. derive_event_duration_by_end_date and join_sucessive_events_with_same_activity do so, and raise the same exceptions, if no attribute dictionary is used twice; a trace that contains the same event object three times is joined to an event of four times its duration.", "quantifier": "all logs as graphs of objects, all arguments of the methods, all random numbers", "why_tests_cant": "ranges over all ways in which the objects of a log can be shared", "anchors": ["prolothar_common/models/eventlog/eventlog.py: EventLog.cut_traces", "prolothar_common/models/eventlog/eventlog.py: EventLog.filter_activities", "prolothar_common/models/eventlog/eventlog.py: EventLog.derive_event_duration_by_end_date", "prolothar_common/models/eventlog/eventlog.py: EventLog.join_sucessive_events_with_same_activity", "prolothar_common/lognoise/swap_events.py", "prolothar_common/lognoise/remove_events.py", "prolothar_common/lognoise/add_activity.py"]}
{"id": "C137", "title": "Copies of a log", "statement": "copy gives a log with the same content and other trace objects, and raises ValueError exactly if the log has a trace without events. Whatever sequence of cuts, filters, additions and noise is applied to the copy and to the log, in any order, each of them shows exactly its own edits; the same holds for any two logs without common trace objects or lists of events. The events are shared, though: durations derived in the copy appear in the log as well, and after the events of the copy were joined, the traces of the log keep their activities but contain the joined events.", "quantifier": "all logs as graphs of objects, all interleavings of all edits of both logs", "why_tests_cant": "ranges over all programs that edit two logs", "anchors": ["prolothar_common/models/eventlog/eventlog.py: EventLog.copy", "prolothar_common/models/eventlog/eventlog.py: EventLog.derive_event_duration_by_end_date", "prolothar_common/models/eventlog/eventlog.py: EventLog.join_sucessive_events_with_same_activity", "prolothar_common/models/eventlog/trace.pyx: Trace"]}
{"id": "C138", "title": "Splits of a log share its traces", "statement": "The logs that train_test_split and k_folds give consist of the trace objects of the log, each in exactly one of the two parts. Whatever edits are applied to the two parts, in any order, each part shows its own edits only. In the log itself, and in every other fold, an edit of one part changes exactly the traces of this part, and traces that become empty stay in the log: afterwards methods that look at the first event of each trace can raise IndexError.", "quantifier": "all logs as graphs of objects, all proportions, shuffles and numbers of folds, all interleavings of edits", "why_tests_cant": "ranges over all splits and all programs that edit the parts", "anchors": ["prolothar_common/models/eventlog/eventlog.py: EventLog.train_test_split", "prolothar_common/models/eventlog/eventlog.py: EventLog.k_folds", "prolothar_common/models/eventlog/eventlog.py: EventLog.compute_set_of_start_activities"]}
{"id": "C139", "title": "Logs made from dictionaries share attributes", "statement": "EventLog.create_from_dict(log.to_dict()) gives a log with other trace and event objects and the same content except for the transition ids, and raises ValueError exactly if the log has a trace without events. Edits of the events of the two logs, in any order, do not disturb each other, but the attribute dictionaries are shared: durations derived in the new log appear in the old one.", "quantifier": "all logs as graphs of objects, all interleavings of edits", "why_tests_cant": "ranges over all logs and all programs that edit them", "anchors": ["prolothar_common/models/eventlog/eventlog.py: EventLog.create_from_dict", "prolothar_common/models/eventlog/eventlog.py: EventLog.to_dict", "prolothar_common/models/eventlog/event.pyx: Event.to_dict", "prolothar_common/models/eventlog/trace.pyx: Trace.to_dict"]}
{"id": "C140", "title": "Figures as base 64 text", "statement": "to_base_64 of a plot context gives a text from which decoding restores exactly the bytes of the image that matplotlib makes of the figure of this context, whatever other figures exist and which of them is current. The text has only the characters of the base 64 alphabet and '=', no line breaks, and four characters for every three bytes begun. Before the with block it raises AttributeError; exceptions of matplotlib are passed on.", "quantifier": "all figures, image formats and images of any length", "why_tests_cant": "ranges over all images", "anchors": ["prolothar_common/experiments/plots/plot_context.py: _BasePlotContext.to_base_64", "prolothar_common/experiments/plots/plot_context.py: _BasePlotContext.get_figure"]}
{"id": "C141", "title": "Stopwatch", "statement": "In any sequence of calls get_elapsed_time gives the difference between the clock at this call and the clock at the last start, and raises AttributeError if start was never called. Asking does not stop or reset the watch. If the clock is never set back no elapsed time is negative; if it is, elapsed times can be negative, because the wall clock is used.", "quantifier": "all sequences of calls, all behaviours of the clock", "why_tests_cant": "ranges over all histories and clocks", "anchors": ["prolothar_common/experiments/stopwatch.py: Stopwatch.start", "prolothar_common/experiments/stopwatch.py: Stopwatch.get_elapsed_time"]}
{"id": "C142", "title": "Variables of data petri nets", "statement": "After any sequence of set_value a variable has the value set last, its old name and its old bounds; values are not checked against the bounds. The number of an IntVariable or FloatVariable is its value, that of a BoolVariable is 1 if the value is true in Python's sense and 0 otherwise, so it always lies within the bounds 0 and 1.", "quantifier": "all variables and all sequences of assigned values", "why_tests_cant": "ranges over all histories of a variable", "anchors": ["prolothar_common/models/data_petri_net.py: Variable.set_value", "prolothar_common/models/data_petri_net.py: IntVariable", "prolothar_common/models/data_petri_net.py: FloatVariable", "prolothar_common/models/data_petri_net.py: BoolVariable.get_value_as_number"]}
{"id": "C143", "title": "What a failing transformation leaves behind", "statement": "If transforming a dataset in place raises an exception, there is a first attribute of the affected kind that caused it: a label or one-hot encoding for which no values are predefined or whose values cannot be sorted, a label encoding whose instances have other values than the predefined ones, a min-max scaling of an attribute with only one value (ZeroDivisionError) or of an empty dataset (ValueError), a discretization with fewer than two bins of an attribute with more values than bins, a trained discretization of an attribute without training or without any bin. The attributes before it are completely transformed, it and all later ones are unchanged, and the dataset is still consistent. Noise changes one instance after the other with one generator; those before the instance that fails have their new sequences, it and the others have their old ones. Transforming a copy (inplace=False) leaves the given dataset and all its instances as they were whether it works or raises, and returns only new instances. Where nothing is raised these are the transformations of C61, C62, C82, C87 and C88.", "quantifier": "all datasets, attribute values, parameters of the transformers, iteration orders and generators", "why_tests_cant": "ranges over all datasets and over every attribute and instance at which an exception can occur", "anchors": ["prolothar_common/models/dataset/transformer/dataset_transformer.py: DatasetTransformer.transform", "prolothar_common/models/dataset/transformer/label_encoding.py: LabelEncoding", "prolothar_common/models/dataset/transformer/one_hot_encoding.py: OneHotEncoding", "prolothar_common/models/dataset/transformer/min_max_scaling.py: MinMaxScaling", "prolothar_common/models/dataset/transformer/quantile_based_discretization.py", "prolothar_common/models/dataset/transformer/trainable_q_based_discretization.py"]}
{"id": "C144", "title": "Integers of the compiled code", "statement": "Edit distances, common subsequences and common blocks are computed with 32 bit integers. If the number of elements of both sequences plus one, times the largest absolute value of the costs (at least 1), is below 2^31, no addition of levenshtein_with_backtrace overflows and its result is the one of exact integers (C10 to C13). For all costs: if nothing overflows, the result is the one of exact integers. The largest C int as insertion cost overflows for all non-empty sequences. length_of_common_subsequence and lcs_with_backtrace do not overflow for sequences with fewer than 2^31 - 1 elements in total, longest_common_sublists not for lists with fewer than 2^31 - 1 elements each. The counts of the graph that create_from_event_log returns are C ints for every log with fewer than 2^31 events.", "quantifier": "all sequences of the stated lengths, all costs and all logs", "why_tests_cant": "ranges over all costs and over lengths far beyond what a test can allocate", "anchors": ["prolothar_common/levenshtein.pyx: compute_cost_matrix", "prolothar_common/longest_common_subsequence.pyx: compute_lcs_matrix", "prolothar_common/collections/list_utils.pyx: longest_common_sublists", "prolothar_common/models/directly_follows_graph.pyx: DirectlyFollowsGraph.create_from_event_log"]}
{"id": "C145", "title": "Colors of activities in drawings", "statement": "The node of an activity in a directly-follows graph is white with black letters until its color or fontcolor is assigned to; assigning for an activity that is not in the graph raises a KeyError. An activity keeps the colors assigned last as long as it stays in the graph, whatever is done to the graph, also when it is renamed; one that was removed and comes back is white again, and so is everything in a copy, filter or selection. plot draws each activity with these colors and everything else as without colors. Two graphs whose names and colors are ordinary are equal exactly if they have the same activities with the same colors and the same edges with the same counts. What cannot be relied on: a copy of a graph is equal to it only if all its activities are white with black letters.", "quantifier": "all graphs a program can build, all histories of assignments and method calls, all color strings (for equality those without quotes, backslashes, colons and line breaks, and without both < and >)", "why_tests_cant": "ranges over all histories of painting and changing graphs", "anchors": ["prolothar_common/models/dfg/node.pyx: Node", "prolothar_common/models/directly_follows_graph.pyx: DirectlyFollowsGraph.plot", "prolothar_common/models/directly_follows_graph.pyx: DirectlyFollowsGraph.__eq__", "prolothar_common/models/directly_follows_graph.pyx: DirectlyFollowsGraph.copy", "prolothar_common/models/directly_follows_graph.pyx: DirectlyFollowsGraph.rename_activity"]}
{"id": "C146", "title": "The printed state of a data petri net", "statement": "print_state prints one line for each place with its id, label and number of tokens, in the order of adding, and one for each variable with its name and value. The printed text is unambiguous whatever characters the names have (quotes, commas, angle brackets, line breaks): two nets print the same exactly if they have the same places in the same order with the same labels and tokens, and the same variables in the same order with values that look the same. So nets that print the same have the same marking.", "quantifier": "all nets, all ids, labels and names of 8 bit characters, all markings and all values of variables whose text has no line break", "why_tests_cant": "ranges over all pairs of nets and all names", "anchors": ["prolothar_common/models/data_petri_net.py: DataPetriNet.print_state"]}
{"id": "C147", "title": "The printed form of an event log", "statement": "repr of a log shows the number of traces, and per trace its id and its activities in order. If no id has a closing parenthesis, two logs have the same repr exactly if they have the same ids and the same activities, trace by trace, whatever characters the activities have; attributes and transitions of events are not shown. What cannot be relied on: ids with parentheses and line breaks can make logs with different activities look the same.", "quantifier": "all logs, all activity names of 8 bit characters, all ids", "why_tests_cant": "ranges over all pairs of logs and all names", "anchors": ["prolothar_common/models/eventlog/eventlog.py: EventLog.__repr__", "prolothar_common/models/eventlog/trace.pyx: Trace.__repr__"]}
{"id": "C148", "title": "Which attributes event logs share with pm4py", "statement": "convert_pm4py_log leaves the pm4py log as it is and gives the log that C109 describes. Afterwards, each new trace and the pm4py trace it was made from have one dictionary of attributes in common: an attribute set in one of them is seen in the other. The events have dictionaries of their own: setting attributes of events in one of the two logs is not seen in the other one. So no sequence of the methods of the new log that cut, filter, add or remove events, and neither deriving durations nor joining successive events, changes anything in the pm4py log, also if they raise an exception, and they do with the new log what they do with any log. convert_eventlog_to_pm4py shares nothing: neither log sees what happens to the attributes of the other one.", "quantifier": "all pm4py logs, also with events that share their dictionaries, all event logs, all sequences of edits, all choices of the attributes and all values set", "why_tests_cant": "ranges over all logs, all ways their dictionaries are shared and all later edits", "anchors": ["prolothar_common/pm4py_utils.py: convert_pm4py_log, convert_trace_to_pm4py, convert_eventlog_to_pm4py", "prolothar_common/models/eventlog/event.pyx: Event.__init__", "prolothar_common/models/eventlog/trace.pyx: Trace.__init__"]}
{"id": "C149", "title": "Comparisons of events with sub-events", "statement": "A ComplexEvent needs at least one child (ValueError otherwise). Two events with children are equal exactly if they have the same name, equal attributes and equal children in the same order, at any depth; other than for events without children, the transition does not count. Being equal is an equivalence, does not depend on which event is on the left, and equal events have equal hashes. What cannot be relied on: if an event with children is compared with one without children that has the same name, or if the first difference between the children of two events is of this kind, an AttributeError is raised instead of an answer; the same goes for traces with such events. to_dict drops children, so a trace with complex events cannot be compared with the one read back from its dictionary.", "quantifier": "all events, with children nested to any depth, all pairs of traces, all hash functions that respect equality of dictionaries", "why_tests_cant": "ranges over all pairs of nested events", "anchors": ["prolothar_common/models/eventlog/complex_event.pyx: ComplexEvent.__init__, __eq__, __hash__", "prolothar_common/models/eventlog/event.pyx: Event.__eq__, __hash__, to_dict, create_from_dict", "prolothar_common/models/eventlog/trace.pyx: Trace.__eq__, to_dict, create_from_dict"]}
