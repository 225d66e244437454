{"id": "C01", "title": "UnionFind implements the equivalence closure of its unions", "statement": "After any sequence of union calls on a fresh UnionFind(capacity) in which no call raised, are_in_same_set(x, y) is True exactly when x and y are related by the smallest equivalence relation containing every pair passed to union.", "quantifier": "every capacity, every finite sequence of union calls on valid indices, every pair of valid indices", "why_tests_cant": "The set of histories is infinite and the parent forest built depends on the whole order of unions and on the (non-root) ranks consulted.", "anchors": ["pelote/classes/union_find.py:UnionFind.find", "pelote/classes/union_find.py:UnionFind.union", "pelote/classes/union_find.py:UnionFind.are_in_same_set"]}
{"id": "C02", "title": "find always terminates and returns a canonical representative", "statement": "After any history of unions, find(x) terminates for every valid x, returns a valid index in the same set as x, is idempotent (find(find(x)) == find(x)) and returns the same index for two elements exactly when they are in the same set; find changes nothing.", "quantifier": "every capacity, every history of unions (including one that raised), every valid index", "why_tests_cant": "Termination of the two `while True` loops is a liveness claim over all reachable parent arrays; a test can only time out.", "anchors": ["pelote/classes/union_find.py:UnionFind.find"]}
{"id": "C03", "title": "union's return value and len() count the sets", "statement": "union(x, y) returns True exactly when x and y were in different sets before the call, and len() is always the number of equivalence classes (capacity minus the number of unions that returned True).", "quantifier": "every capacity, every history of non-raising unions", "why_tests_cant": "Relates a counter to the number of classes of a relation for all histories.", "anchors": ["pelote/classes/union_find.py:UnionFind.union", "pelote/classes/union_find.py:UnionFind.__len__"]}
{"id": "C04", "title": "cardinality(x) is the size of the set containing x", "statement": "After any history of non-raising unions, cardinality(x) is the number of valid indices y such that are_in_same_set(x, y).", "quantifier": "every capacity, every history of non-raising unions, every valid index", "why_tests_cant": "The stored per-root counters must agree with the partition after every history.", "anchors": ["pelote/classes/union_find.py:UnionFind.cardinality", "pelote/classes/union_find.py:UnionFind.union"]}
{"id": "C05", "title": "union never raises on valid indices", "statement": "On a UnionFind of any supported capacity, union(x, y) with 0 <= x, y < capacity never raises.", "quantifier": "every capacity up to 2**64, every history", "why_tests_cant": "The failing capacities are exact powers of two matched to the machine integer width and only fail once a set covers every element; small tests never reach them.", "anchors": ["pelote/classes/union_find.py:UnionFind.allocate", "pelote/classes/union_find.py:UnionFind.union", "pelote/utils.py:uint_representation_for_capacity"]}
{"id": "C06", "title": "clear() restores the freshly constructed structure", "statement": "After any history (including a history in which some union raised), clear() leaves a UnionFind indistinguishable from a fresh one with the same capacity: every later sequence of operations gives the same answers. The same holds for DisjointSet.", "quantifier": "every capacity, every history before clear, every sequence of operations after it", "why_tests_cant": "Observational equality quantifies over all continuations.", "anchors": ["pelote/classes/union_find.py:UnionFind.clear", "pelote/classes/union_find.py:DisjointSet.clear"]}
{"id": "C07", "title": "DisjointSet is a partition of arbitrary keys", "statement": "As long as at most `capacity` distinct keys have been mentioned and no call raised, DisjointSet answers are_in_same_set, union and cardinality exactly as the equivalence closure of the pairs united so far; mentioning a key beyond the capacity raises IndexError.", "quantifier": "every capacity, every history of find/union/cardinality/are_in_same_set over any hashable keys", "why_tests_cant": "Key registration is interleaved with unions, so ids depend on the whole history.", "anchors": ["pelote/classes/union_find.py:DisjointSet", "pelote/classes/incremental_id_register.py:IncrementalIdRegister"]}
{"id": "C08", "title": "IncrementalIdRegister hands out ids 0,1,2,... in first-seen order", "statement": "The id returned for a key is the number of distinct keys looked up before its first lookup; it never changes afterwards, and two different keys never share an id.", "quantifier": "every sequence of lookups of hashable keys", "why_tests_cant": "Injectivity and stability over all histories.", "anchors": ["pelote/classes/incremental_id_register.py:IncrementalIdRegister.__getitem__"]}
{"id": "C09", "title": "union by rank keeps find paths logarithmic", "statement": "The number of parent steps find performs is at most logarithmic in the number of elements, as union-by-rank promises.", "quantifier": "every capacity and every history of unions", "why_tests_cant": "A worst-case bound over all histories.", "anchors": ["pelote/classes/union_find.py:UnionFind.union", "pelote/classes/union_find.py:UnionFind.find"]}
{"id": "C10", "title": "connected_component_orders lists the component sizes of an undirected graph", "statement": "For an undirected graph, the yielded integers are exactly, with multiplicity and in order of first node, the numbers of nodes of the connected components; with a symmetric edge_filter they are those of the graph restricted to the accepted edges.", "quantifier": "every undirected (multi)graph, every symmetric pure edge filter", "why_tests_cant": "All graphs; correctness and termination of a stack-based DFS.", "anchors": ["pelote/graph.py:connected_component_orders", "pelote/classes/traversal.py:DFSStack"]}
{"id": "C11", "title": "connected_component_orders partitions the nodes of any graph", "statement": "For any graph, directed or not, and any edge filter, the yielded sizes are positive and sum to the number of nodes.", "quantifier": "every graph, every pure edge filter", "why_tests_cant": "All graphs and filters.", "anchors": ["pelote/graph.py:connected_component_orders", "pelote/classes/traversal.py:DFSStack"]}
{"id": "C12", "title": "connected_component_orders works with weak components on directed graphs", "statement": "For a directed graph the yielded integers are the sizes of the weakly connected components.", "quantifier": "every directed graph", "why_tests_cant": "Depends on the node order relative to the edge directions.", "anchors": ["pelote/graph.py:connected_component_orders"]}
{"id": "C13", "title": "largest_connected_component returns a component of maximum size", "statement": "For a non-null graph largest_connected_component returns the node set of a (weakly) connected component and no component has more nodes.", "quantifier": "every graph with at least one node", "why_tests_cant": "Depends on the sizes and the order of all components; the early exit only misfires for particular size sequences.", "anchors": ["pelote/graph.py:largest_connected_component"]}
{"id": "C14", "title": "crop_to_largest_connected_component keeps exactly the induced subgraph", "statement": "After crop_to_largest_connected_component the graph has exactly the nodes of the set returned by largest_connected_component, all edges between them, with unchanged node, edge and graph attributes; the null graph is left unchanged.", "quantifier": "every graph", "why_tests_cant": "All graphs; also says what must not change.", "anchors": ["pelote/graph.py:crop_to_largest_connected_component"]}
{"id": "C15", "title": "largest_connected_component_subgraph returns the induced subgraph in both modes", "statement": "largest_connected_component_subgraph(g) and largest_connected_component_subgraph(g, as_view=True) both contain exactly the nodes of the component and every edge between them.", "quantifier": "every graph, both values of as_view", "why_tests_cant": "All graphs.", "anchors": ["pelote/graph.py:largest_connected_component_subgraph"]}
{"id": "C16", "title": "largest and second largest component orders", "statement": "largest_connected_component_order returns None for the null graph and otherwise the maximum component order; second_largest_connected_component_order returns None when there are fewer than two components and otherwise the second largest order counted with multiplicity.", "quantifier": "every undirected graph, every symmetric edge filter", "why_tests_cant": "All graphs.", "anchors": ["pelote/graph.py:largest_connected_component_order", "pelote/graph.py:second_largest_connected_component_order"]}
{"id": "C17", "title": "are_same_graphs decides equality of simple graphs", "statement": "For two graphs of the same simple kind (both undirected or both directed), are_same_graphs(A, B) is True exactly when they have the same nodes and the same edges, and with check_attributes=True exactly when moreover all node and edge attributes are equal. It is therefore an equivalence relation on each kind.", "quantifier": "every pair of simple graphs of the same kind", "why_tests_cant": "The implementation checks only one inclusion plus a size comparison; equality is a counting argument over all graphs.", "anchors": ["pelote/graph.py:are_same_graphs", "pelote/graph.py:have_same_nodes", "pelote/graph.py:have_same_edges"]}
{"id": "C18", "title": "are_same_graphs on multigraphs compares edge multiplicities", "statement": "For two multigraphs are_same_graphs(A, B) is True only if every pair of nodes is linked by the same number of edges in both.", "quantifier": "every pair of multigraphs", "why_tests_cant": "Fails only for particular multiplicity patterns with equal totals.", "anchors": ["pelote/graph.py:have_same_edges"]}
{"id": "C19", "title": "remove_edges keeps exactly the edges passing the predicate (simple graphs)", "statement": "On a simple graph, after remove_edges(g, predicate) the edges reported by g.edges are exactly those reported before that passed the predicate, in the same order with the same attributes; nodes are unchanged. If the predicate raises, the graph is unchanged.", "quantifier": "every simple graph, every predicate", "why_tests_cant": "All graphs and predicates; mutation and exceptional paths.", "anchors": ["pelote/graph.py:remove_edges"]}
{"id": "C20", "title": "filter_edges returns exactly the edges passing the predicate", "statement": "filter_edges(g, predicate) returns a graph of the same kind with the same graph attributes, the same nodes with the same attributes in the same order, and whose reported edge list is the reported edge list of g filtered by the predicate, for simple graphs and multigraphs.", "quantifier": "every graph whose attribute names can be passed as keyword arguments, every predicate", "why_tests_cant": "All graphs; requires reasoning on adjacency insertion order.", "anchors": ["pelote/graph.py:filter_edges"]}
{"id": "C21", "title": "remove_edges and filter_edges agree", "statement": "Mutating a graph with remove_edges and copying it with filter_edges under the same predicate give the same edges.", "quantifier": "every graph including multigraphs, every predicate", "why_tests_cant": "On multigraphs the disagreement needs parallel edges with different verdicts.", "anchors": ["pelote/graph.py:remove_edges", "pelote/graph.py:filter_edges"]}
{"id": "C22", "title": "remove_nodes leaves the subgraph induced by the accepted nodes", "statement": "After remove_nodes(g, predicate) the graph contains exactly the nodes passing the predicate and exactly the edges between two such nodes, with all attributes unchanged.", "quantifier": "every graph of the four kinds, every predicate", "why_tests_cant": "All graphs and predicates.", "anchors": ["pelote/graph.py:remove_nodes"]}
{"id": "C23", "title": "filter_nodes returns the subgraph induced by the accepted nodes", "statement": "filter_nodes(g, predicate) returns a graph of the same kind and graph attributes containing exactly the accepted nodes with their attributes, and every edge (with key and attributes) between two accepted nodes.", "quantifier": "every graph with mutually comparable node keys, every predicate", "why_tests_cant": "The traversal adds endpoints before their attributes are known and relies on a node ordering test; self-loops and ordering matter.", "anchors": ["pelote/graph.py:filter_nodes", "pelote/graph.py:create_null_copy"]}
{"id": "C24", "title": "remove_leaves and filter_leaves drop exactly one layer of leaves", "statement": "remove_leaves removes exactly the nodes of degree 1 in the graph as it was before the call, and filter_leaves returns the subgraph induced by the others; nodes that only become leaves because of the removal are kept.", "quantifier": "every graph", "why_tests_cant": "A claim about every graph: degrees must be read before the mutation.", "anchors": ["pelote/graph.py:remove_leaves", "pelote/graph.py:filter_leaves"]}
{"id": "C25", "title": "union_of_maximum_spanning_trees yields every edge of every maximum spanning forest", "statement": "Every edge belonging to at least one maximum-weight spanning forest of the graph is yielded.", "quantifier": "every graph with numeric weights (missing weight counts as 1)", "why_tests_cant": "Quantifies over all spanning forests of all graphs.", "anchors": ["pelote/graph.py:union_of_maximum_spanning_trees"]}
{"id": "C26", "title": "union_of_maximum_spanning_trees yields only edges of maximum spanning forests", "statement": "Every yielded edge belongs to at least one maximum-weight spanning forest.", "quantifier": "every graph with numeric weights", "why_tests_cant": "Needs, for each edge of each graph, the existence of an optimal forest through it.", "anchors": ["pelote/graph.py:union_of_maximum_spanning_trees"]}
{"id": "C27", "title": "union_of_maximum_spanning_trees preserves connectivity and yields no loops or duplicates", "statement": "Two nodes are connected by yielded edges exactly when they are connected in the graph; self-loops are never yielded, every yielded edge is an edge of the graph and is yielded once, in order of non-increasing weight.", "quantifier": "every graph with numeric weights", "why_tests_cant": "All graphs.", "anchors": ["pelote/graph.py:union_of_maximum_spanning_trees"]}
{"id": "C28", "title": "union_of_maximum_spanning_trees never raises on numeric weights", "statement": "Iterating union_of_maximum_spanning_trees(g) to the end never raises when all weights are numbers.", "quantifier": "every graph with numeric weights", "why_tests_cant": "Only graphs with particular numbers of nodes (256, 65536, ...) trigger the failure.", "anchors": ["pelote/graph.py:union_of_maximum_spanning_trees", "pelote/classes/union_find.py:DisjointSet.union"]}
{"id": "C29", "title": "global_threshold_sparsification keeps exactly the edges on the right side of the threshold", "statement": "Without keep_connected, the result has all nodes of the input and exactly the edges with weight >= threshold (<= threshold when reverse=True), attributes unchanged; a missing weight raises KeyError. Raising the threshold can only remove edges.", "quantifier": "every graph, threshold and value of reverse", "why_tests_cant": "All graphs and thresholds.", "anchors": ["pelote/sparsification/global_threshold.py:GlobalThresholdSparsifier", "pelote/sparsification/utils.py:Sparsifier.filter"]}
{"id": "C30", "title": "relevant and redundant edges partition the edges", "statement": "For any Sparsifier built from an edge predicate, every edge reported by the graph is reported by exactly one of relevant_edges and redundant_edges, in the graph's order.", "quantifier": "every sparsifier built from a predicate factory, every graph, both values of keep_connected", "why_tests_cant": "All predicates and graphs.", "anchors": ["pelote/sparsification/utils.py:Sparsifier.relevant_edges", "pelote/sparsification/utils.py:Sparsifier.redundant_edges"]}
{"id": "C31", "title": "Sparsifier.remove mutates to what Sparsifier.filter returns", "statement": "sparsifier.remove(g) leaves g with the same nodes and edges as sparsifier.filter(g) would have returned.", "quantifier": "every sparsifier built from a predicate factory, every graph including multigraphs", "why_tests_cant": "Two different code paths must agree on all graphs.", "anchors": ["pelote/sparsification/utils.py:Sparsifier.remove", "pelote/sparsification/utils.py:Sparsifier.filter"]}
{"id": "C32", "title": "keep_connected preserves the connected components", "statement": "With keep_connected=True, any sparsifier built from an edge predicate returns a graph with exactly the same connected components (weak components for directed graphs) as its input, and a superset of the edges kept without it.", "quantifier": "every graph, every predicate", "why_tests_cant": "All graphs and predicates; correctness of the UMST is needed.", "anchors": ["pelote/sparsification/utils.py:decorate_predicate_factory_with_umst"]}
{"id": "C33", "title": "keep_connected honours the configured weight attribute", "statement": "With keep_connected=True and edge_weight_attr=a, an edge failing the threshold is kept only if it belongs to a maximum spanning forest for the weights stored in attribute a.", "quantifier": "every graph, threshold and weight attribute name", "why_tests_cant": "Only shows with a non-default attribute name.", "anchors": ["pelote/sparsification/utils.py:decorate_predicate_factory_with_umst", "pelote/sparsification/global_threshold.py:GlobalThresholdSparsifier"]}
{"id": "C34", "title": "flag_relevant_edges and flag_redundant_edges set exactly the flag", "statement": "flag_relevant_edges(g, attr) sets attr to True on exactly the relevant edges, with full=True sets attr on every edge to whether it is relevant, and changes no other attribute, edge or node; symmetrically for flag_redundant_edges.", "quantifier": "every graph, predicate sparsifier whose predicate does not read the flag attribute, both values of full", "why_tests_cant": "All graphs; frame condition (what must not change).", "anchors": ["pelote/sparsification/utils.py:Sparsifier.flag_relevant_edges", "pelote/sparsification/utils.py:Sparsifier.flag_redundant_edges"]}
{"id": "C35", "title": "generator-based sparsifiers are consistent", "statement": "A Sparsifier built only from a relevant_edges_generator (resp. only from a redundant_edges_generator) that yields a subset of the edges has the complementary set as redundant (resp. relevant) edges.", "quantifier": "every simple graph with comparable keys, every generator yielding edges of the graph in either orientation", "why_tests_cant": "Orientation normalisation must work for all graphs.", "anchors": ["pelote/sparsification/utils.py:Sparsifier.__init__"]}
{"id": "C36", "title": "multiscale_backbone keeps exactly the edges with disparity <= alpha and is monotone in alpha", "statement": "multiscale_backbone(g, alpha) has all the nodes of g and exactly the edges whose edge_disparity score is <= alpha; increasing alpha only adds edges; with positive weights alpha >= 1 keeps everything.", "quantifier": "every simple undirected graph with positive weights and comparable keys, every alpha", "why_tests_cant": "All graphs; every edge must be found in the disparity mapping whatever its orientation.", "anchors": ["pelote/sparsification/multiscale_backbone.py:MultiscaleBackboneSparsifier", "pelote/metrics/edge_disparity.py:edge_disparity"]}
{"id": "C37", "title": "edge_disparity scores every edge once with the documented formula", "statement": "edge_disparity returns exactly one entry per edge, keyed with its smaller endpoint first, equal to min((1-w/s(u))^(deg(u)-1), (1-w/s(v))^(deg(v)-1)) where s is the weighted degree; with positive weights the score lies in [0,1].", "quantifier": "every simple undirected graph with numeric positive weights and comparable keys", "why_tests_cant": "All graphs; exact arithmetic claim.", "anchors": ["pelote/metrics/edge_disparity.py:edge_disparity"]}
{"id": "C38", "title": "edge_disparity(reverse=True) is one minus edge_disparity", "statement": "For every edge the reversed score is one minus the plain score.", "quantifier": "every simple undirected graph with positive weights", "why_tests_cant": "All graphs.", "anchors": ["pelote/metrics/edge_disparity.py:edge_disparity"]}
{"id": "C39", "title": "edge_disparity is invariant under rescaling of the weights", "statement": "Multiplying every weight by the same positive constant leaves every disparity score unchanged.", "quantifier": "every simple undirected graph with positive weights, every positive factor", "why_tests_cant": "A metamorphic relation over all graphs and factors.", "anchors": ["pelote/metrics/edge_disparity.py:edge_disparity"]}
{"id": "C40", "title": "triangles yields each triangle exactly once", "statement": "triangles(g) terminates and yields exactly one 3-tuple for every set of three distinct pairwise adjacent nodes, and nothing else, for graphs with self-loops, directed graphs and multigraphs (seen as undirected).", "quantifier": "every graph", "why_tests_cant": "Correctness of the in-place adjacency deletions over all graphs.", "anchors": ["pelote/metrics/chiba_nishizeki.py:triangles"]}
{"id": "C41", "title": "triangular_strength counts the triangles through each edge", "statement": "triangular_strength(g) maps each edge {u,v} (smaller endpoint first) to the number of common neighbours of u and v; with full=True every edge has an entry, without it exactly those with a positive count.", "quantifier": "every loop-free graph with comparable keys (self-loops get 0 with full=True)", "why_tests_cant": "All graphs.", "anchors": ["pelote/metrics/chiba_nishizeki.py:triangular_strength"]}
{"id": "C42", "title": "naive_triangular_strength agrees with triangular_strength", "statement": "naive_triangular_strength(g, full) and triangular_strength(g, full) return equal mappings.", "quantifier": "every graph with comparable keys, both values of full", "why_tests_cant": "Two algorithms, all graphs; disagreements need self-loops or zero-strength edges.", "anchors": ["pelote/metrics/chiba_nishizeki.py:naive_triangular_strength", "pelote/utils.py:fast_intersection_size"]}
{"id": "C43", "title": "monopartite_projection keeps exactly the nodes of the part", "statement": "The projection of a graph contains exactly the nodes of the kept part, with their attributes minus the part attribute; an empty part raises TypeError and the null graph gives the null graph.", "quantifier": "every simple undirected graph, part given by attribute value or by collection", "why_tests_cant": "All graphs.", "anchors": ["pelote/projection.py:monopartite_projection"]}
{"id": "C44", "title": "monopartite_projection links exactly the pairs sharing a neighbour", "statement": "Without threshold, two kept nodes are linked in the projection exactly when they share a neighbour in the bipartite graph, and the weight of the link is the metric evaluated on them (number of shared neighbours by default, jaccard, overlap, dice, dot product and cosine as defined in the literature).", "quantifier": "every bipartite simple undirected graph with comparable keys, every metric", "why_tests_cant": "All graphs; the loop skips pairs by node ordering, norms may be missing.", "anchors": ["pelote/projection.py:monopartite_projection", "pelote/classes/online_metrics.py"]}
{"id": "C45", "title": "similarity metrics have their mathematical range", "statement": "jaccard, overlap, dice (and cosine and binary_cosine up to rounding of the square root) weights are in (0, 1] for positive weights.", "quantifier": "every bipartite graph and pair of linked nodes", "why_tests_cant": "Inequalities (e.g. Cauchy-Schwarz) over all graphs.", "anchors": ["pelote/classes/online_metrics.py"]}
{"id": "C46", "title": "weight_threshold only drops projection edges below the threshold", "statement": "With weight_threshold=t the projection has the same nodes and exactly the edges of the unthresholded projection whose weight is >= t; non-positive or non-numeric thresholds raise TypeError.", "quantifier": "every bipartite graph, metric and threshold", "why_tests_cant": "All graphs.", "anchors": ["pelote/projection.py:monopartite_projection"]}
{"id": "C47", "title": "monopartite_projection raises on non bipartite input", "statement": "With bipartition_check=True, monopartite_projection raises TypeError whenever two nodes of the kept part are linked, whether the part is given by attribute or by collection.", "quantifier": "every graph and every way of giving the part", "why_tests_cant": "Existing tests only cover the collection variant.", "anchors": ["pelote/projection.py:monopartite_projection"]}
{"id": "C48", "title": "bfs_from_node yields nodes with their exact distance", "statement": "bfs_from_node(g, s, limit=L) yields every node other than s at directed distance 1..L from s exactly once, with that distance, in non-decreasing order of distance; with reverse=True distances are taken against the arrows.", "quantifier": "every directed graph, source and limit", "why_tests_cant": "All graphs.", "anchors": ["pelote/projection.py:bfs_from_node", "pelote/classes/traversal.py:BFSQueue"]}
{"id": "C49", "title": "self_similarity_projection (depth 1) computes a Jaccard index in (0, 1]", "statement": "At depth 1, two distinct nodes are linked exactly when they share a successor or share a predecessor (other than themselves), the division never fails and the weight is the number of shared (direction, neighbour) pairs divided by the number of distinct pairs of either node not counting the links between the two nodes; it lies in (0,1].", "quantifier": "every directed graph", "why_tests_cant": "The denominators are obtained by a decrement trick whose correctness is a set-theoretic identity over all graphs.", "anchors": ["pelote/projection.py:self_similarity_projection"]}
{"id": "C50", "title": "self_similarity_projection honours its depth argument for every node", "statement": "self_similarity_projection(g, depth=d) uses neighbourhoods of radius d for every node, independently of the order of the nodes.", "quantifier": "every directed graph and depth", "why_tests_cant": "Needs depth >= 2 and an unlucky node order.", "anchors": ["pelote/projection.py:self_similarity_projection"]}
{"id": "C51", "title": "table_to_bipartite_graph counts rows", "statement": "The weight of the edge between the node of a first-column value and the node of a second-column value is the number of rows holding both values, an edge exists exactly when there is such a row, and the weights sum to the number of rows.", "quantifier": "every table whose rows all have both columns, disjoint_keys False", "why_tests_cant": "All tables.", "anchors": ["pelote/tabular_to_graph.py:table_to_bipartite_graph"]}
{"id": "C52", "title": "table_to_bipartite_graph creates one node per (column, value) and is bipartite", "statement": "With disjoint_keys=False node ids are 0..n-1 in first-seen order, there is exactly one node per distinct (column, value) pair, every edge joins a first-part node to a second-part node, and a row lacking a column raises TypeError.", "quantifier": "every table", "why_tests_cant": "All tables; same value in both columns must not merge.", "anchors": ["pelote/tabular_to_graph.py:table_to_bipartite_graph", "pelote/classes/incremental_id_register.py:IncrementalIdRegister"]}
{"id": "C53", "title": "node data comes from the first row mentioning the node", "statement": "The attributes of a node are the part name, the label and the data collected from the first row containing the node (collected data taking precedence); later rows never change them.", "quantifier": "every table and data specification", "why_tests_cant": "All tables and orders of rows.", "anchors": ["pelote/tabular_to_graph.py:table_to_bipartite_graph", "pelote/tabular_to_graph.py:collect_row_data"]}
{"id": "C54", "title": "disjoint_keys=True is only an optimisation when the columns are disjoint", "statement": "If no value occurs in both columns, the graph built with disjoint_keys=True is the one built with disjoint_keys=False with nodes renamed by the key-to-id mapping.", "quantifier": "every table with disjoint columns", "why_tests_cant": "An isomorphism claim over all tables.", "anchors": ["pelote/tabular_to_graph.py:table_to_bipartite_graph"]}
{"id": "C55", "title": "edges_table_to_graph keeps the last occurrence of each edge", "statement": "Without count_rows_as_weight, the graph has an edge exactly for each pair occurring in a row (unordered pair when undirected), carrying the edge_data of the last row with that pair, and its nodes are exactly the endpoints.", "quantifier": "every table of edges, directed or not", "why_tests_cant": "All tables.", "anchors": ["pelote/tabular_to_graph.py:_edges_table_to_graph", "pelote/tabular_to_graph.py:edges_table_to_graph"]}
{"id": "C56", "title": "count_rows_as_weight counts rows per pair", "statement": "With count_rows_as_weight=True the weight attribute of an edge is the number of rows with that pair (unordered when undirected), the other attributes coming from the first such row.", "quantifier": "every table of edges", "why_tests_cant": "All tables.", "anchors": ["pelote/tabular_to_graph.py:_edges_table_to_graph"]}
{"id": "C57", "title": "tables_to_graph raises exactly on missing nodes unless told otherwise", "statement": "With add_missing_nodes=False (the default), tables_to_graph raises KeyError when an edge mentions a node absent from the nodes table and otherwise returns a graph whose nodes are exactly those of the nodes table; with add_missing_nodes=True missing nodes are added without attributes.", "quantifier": "every pair of tables", "why_tests_cant": "All tables.", "anchors": ["pelote/tabular_to_graph.py:tables_to_graph", "pelote/graph.py:check_node_exists"]}
{"id": "C58", "title": "DataFrame input is equivalent to a list of dicts", "statement": "Iterating a DataFrame restricted to the needed columns gives, row by row, dicts with the same values, so the functions accepting tables give the same graph for a DataFrame and for the list of its rows.", "quantifier": "every rectangular table and column selection", "why_tests_cant": "All tables.", "anchors": ["pelote/utils.py:iterator_from_dataframe"]}
{"id": "C59", "title": "graph_to_dataframes then tables_to_graph is the identity", "statement": "For a simple graph whose nodes (resp. edges) all carry the same attribute names, none of them clashing with the key/source/target columns, converting to the two tables and back yields the same graph.", "quantifier": "every such simple graph", "why_tests_cant": "A round-trip over all graphs.", "anchors": ["pelote/graph_to_tabular.py:graph_to_dataframes", "pelote/tabular_to_graph.py:tables_to_graph"]}
{"id": "C60", "title": "the key, source and target columns identify nodes and edges", "statement": "Row i of graph_to_nodes_dataframe has the i-th node key in the key column, and row i of graph_to_edges_dataframe has the endpoints of the i-th edge in the source and target columns.", "quantifier": "every graph and column names", "why_tests_cant": "Only fails when an attribute has the column's name.", "anchors": ["pelote/graph_to_tabular.py:graph_to_nodes_dataframe", "pelote/graph_to_tabular.py:graph_to_edges_dataframe"]}
{"id": "C61", "title": "write then read is the identity on simple graphs with string keys", "statement": "read_graphology_json(write_graphology_json(g)) has the same kind, the same nodes, edges and node, edge and graph attributes as g.", "quantifier": "every simple graph (directed or not) with string node keys and string attribute names", "why_tests_cant": "A round-trip over all graphs.", "anchors": ["pelote/write.py:write_graphology_json", "pelote/read.py:parse_graphology_json"]}
{"id": "C62", "title": "write then read renames integer keys injectively", "statement": "For a simple graph with integer node keys, reading back what was written gives the graph with every key k replaced by str(k), and distinct nodes stay distinct.", "quantifier": "every simple graph with integer keys", "why_tests_cant": "A round-trip over all graphs.", "anchors": ["pelote/write.py:write_graphology_json", "pelote/read.py:parse_graphology_json"]}
{"id": "C63", "title": "write then read preserves multigraphs up to edge keys", "statement": "For a multigraph with string keys the graph read back has the same nodes and, between any two nodes, the same sequence of edge attributes; edge keys are renumbered from 0.", "quantifier": "every multigraph with string keys", "why_tests_cant": "A round-trip over all graphs.", "anchors": ["pelote/write.py:write_graphology_json", "pelote/read.py:parse_graphology_json"]}
{"id": "C64", "title": "write_graphology_json never silently merges nodes", "statement": "A successful write produces exactly one serialized node per node of the graph, with pairwise distinct keys.", "quantifier": "every graph, every value of allow_mixed_keys", "why_tests_cant": "Clashes need particular mixes of keys.", "anchors": ["pelote/write.py:write_graphology_json"]}
{"id": "C65", "title": "write_graphology_json rejects unserializable input", "statement": "A node key that is neither int nor str, node keys of two different types (unless allow_mixed_keys) and a non-string attribute name on a node or edge (unless allow_invalid_attr_names) raise TypeError, and nothing else does.", "quantifier": "every graph and both flags", "why_tests_cant": "All graphs; exact characterisation of the error set.", "anchors": ["pelote/write.py:write_graphology_json", "pelote/write.py:coerce_attributes"]}
{"id": "C66", "title": "mixed graphology graphs are accepted only if homogeneous", "statement": "Parsing a graph declared mixed succeeds only if all edges are undirected, giving an undirected graph, or all are directed (or there are none), giving a directed graph; otherwise TypeError. Missing options raise TypeError.", "quantifier": "every serialized graph", "why_tests_cant": "All documents.", "anchors": ["pelote/read.py:parse_graphology_json"]}
{"id": "C67", "title": "counting_sort sorts", "statement": "counting_sort(items, key, reverse) returns a permutation of items in non-decreasing (non-increasing with reverse) order of key, for every non-empty list of items with integer keys.", "quantifier": "every non-empty list, integer key function and value of reverse", "why_tests_cant": "All inputs.", "anchors": ["pelote/utils.py:counting_sort"]}
{"id": "C68", "title": "counting_sort is a drop-in replacement for sorted", "statement": "counting_sort(items, key=key) equals sorted(items, key=key), including stability and the empty list.", "quantifier": "every list and integer key function", "why_tests_cant": "Stability and the empty case.", "anchors": ["pelote/utils.py:counting_sort"]}
{"id": "C69", "title": "uint_representation_for_max picks the smallest sufficient unsigned type", "statement": "uint_representation_for_max(n) returns the representation with the smallest max among those with max >= n and raises TypeError exactly when n >= 2**64.", "quantifier": "every integer", "why_tests_cant": "All integers.", "anchors": ["pelote/utils.py:uint_representation_for_max"]}
{"id": "C70", "title": "fast_intersection_size is the size of the intersection", "statement": "For two sets A and B fast_intersection_size returns |A & B|, symmetrically.", "quantifier": "every pair of finite sets", "why_tests_cant": "All sets.", "anchors": ["pelote/utils.py:fast_intersection_size"]}
{"id": "C71", "title": "has_mixed_types detects two different types", "statement": "has_mixed_types(items) is True exactly when two of the items have different types.", "quantifier": "every finite iterable", "why_tests_cant": "All inputs.", "anchors": ["pelote/utils.py:has_mixed_types"]}
{"id": "C72", "title": "floatsam_threshold_learner returns the last threshold before a big component drifts away", "statement": "When it returns, the result is starting_threshold + k * learning_rate where k is the least number such that keeping the edges of weight >= starting_threshold + (k+1) * learning_rate leaves a second largest component of order >= max_drifter_order.", "quantifier": "every graph with weighted edges, every threshold, rate and max_drifter_order", "why_tests_cant": "A loop invariant over an unbounded number of epochs.", "anchors": ["pelote/learn.py:floatsam_threshold_learner"]}
{"id": "C73", "title": "floatsam_threshold_learner terminates", "statement": "floatsam_threshold_learner(g) terminates for every weighted graph and positive learning rate.", "quantifier": "every graph with numeric weights", "why_tests_cant": "Non-termination cannot be observed by a test.", "anchors": ["pelote/learn.py:floatsam_threshold_learner"]}
{"id": "C74", "title": "DFSStack and BFSQueue schedule each node at most once", "statement": "Over any sequence of append and pop calls, a node is stored at most once, append returns True exactly on the first append of a node, pops come out in LIFO (resp. FIFO) order and nodes_yet_unseen yields exactly the graph nodes never appended.", "quantifier": "every sequence of operations", "why_tests_cant": "All histories.", "anchors": ["pelote/classes/traversal.py:DFSStack", "pelote/classes/traversal.py:BFSQueue"]}
{"id": "C75", "title": "missing_pandas hides pandas exactly inside the block", "statement": "Inside missing_pandas() table functions needing pandas raise MissingPandasException and after the block, whether it raised or not, pandas is available again iff it was installed.", "quantifier": "every nesting of blocks and outcomes", "why_tests_cant": "All nestings and exceptional exits.", "anchors": ["pelote/shim.py:missing_pandas", "pelote/shim.py:check_pandas"]}
{"id": "C76", "title": "are_same_graphs with check_attributes is reflexive", "statement": "are_same_graphs(A, A, check_attributes=True) is True for every graph A, including multigraphs.", "quantifier": "every graph of the four kinds", "why_tests_cant": "the test-suite never compares multigraphs with attributes; the comparison of an attribute dict with a key dict fails for every multigraph with an edge", "anchors": ["pelote/graph.py:173-184", "pelote/graph.py:187-190"]}
{"id": "C77", "title": "Generator-based sparsifiers honour keep_connected", "statement": "A Sparsifier built from a relevant_edges_generator with keep_connected=True reports every edge as exactly one of relevant and redundant, and filtering with it preserves the connected components.", "quantifier": "every graph, every generator yielding edges of the graph", "why_tests_cant": "The test-suite only combines keep_connected with edge predicates.", "anchors": ["pelote/sparsification/utils.py:Sparsifier.__init__", "pelote/sparsification/utils.py:decorate_predicate_factory_with_umst"]}
{"id": "C78", "title": "monopartite_projection accepts every bipartite graph", "statement": "With bipartition_check=True, monopartite_projection does not raise on a graph in which every edge has exactly one end in the kept part.", "quantifier": "every bipartite graph, every way of giving the part, every unweighted metric", "why_tests_cant": "Needs an edge with an attribute called like the part attribute.", "anchors": ["pelote/projection.py:monopartite_projection"]}
{"id": "C79", "title": "a negative learning rate reverses floatsam_threshold_learner", "statement": "As its docstring says, giving a negative learning_rate reverses the logic for metrics where lower is better: the result is starting_threshold + k * learning_rate where k is the least number such that keeping the edges of weight at most starting_threshold + (k+1) * learning_rate leaves a second largest component of order >= max_drifter_order.", "quantifier": "every undirected graph with weighted edges, every negative rate", "why_tests_cant": "All graphs and an unbounded number of epochs.", "anchors": ["pelote/learn.py:floatsam_threshold_learner"]}
{"id": "C80", "title": "on_epoch is told the truth", "statement": "Epoch number i (from 1) reports the threshold starting_threshold + i * learning_rate, the order of the second largest component of the graph keeping the edges of weight at least that threshold (None if there is one component), and the learner stops at the first epoch whose order reaches max_drifter_order.", "quantifier": "every undirected graph with weighted edges", "why_tests_cant": "All graphs, every epoch.", "anchors": ["pelote/learn.py:floatsam_threshold_learner"]}
{"id": "C81", "title": "parse_graphology_json reads exactly the document", "statement": "When it succeeds, the graph has the declared kind and graph attributes, its nodes are exactly the listed nodes and the ends of the listed edges, and two nodes are joined exactly when an edge between them is listed (in that direction if directed).", "quantifier": "every serialized graph", "why_tests_cant": "All documents, including ones pelote does not write.", "anchors": ["pelote/read.py:parse_graphology_json"]}
{"id": "C82", "title": "tables_to_graph takes node data from the last row of the node", "statement": "The attributes of a node of the nodes table are the node_data columns of the last row naming it, and the edges are those of the edges table, with the data of the last row joining the two nodes, or the number of rows and the data of the first one when rows are counted.", "quantifier": "every pair of tables, directed or not, counting rows or not, adding missing nodes or not", "why_tests_cant": "All tables and orders of rows.", "anchors": ["pelote/tabular_to_graph.py:tables_to_graph", "pelote/tabular_to_graph.py:_edges_table_to_graph"]}
{"id": "C83", "title": "DataFrames hold the attributes of nodes and edges", "statement": "Row i of graph_to_edges_dataframe holds, in a column asked by target_node_data, the attribute of the target of the i-th edge, else in a column asked by source_node_data the one of its source, else the attribute of the edge (None, or NaN in a column of numbers, when the node has no such attribute); there are no other columns than these and the key columns. Row i of graph_to_nodes_dataframe holds the attributes of the i-th node.", "quantifier": "every graph, column names, iterables or mappings of node data", "why_tests_cant": "All graphs and all clashes between names of columns.", "anchors": ["pelote/graph_to_tabular.py:graph_to_nodes_dataframe", "pelote/graph_to_tabular.py:graph_to_edges_dataframe"]}
{"id": "C84", "title": "The graph model reads like networkx's own dictionaries", "statement": "After any sequence of add_node, add_edge (with and without a key), remove_nodes_from, remove_edges_from, edge attribute assignments, graph attribute updates and create_empty_copy, the dictionaries _node, _adj, _succ and _pred that networkx keeps and the graph model the other properties are proved on give the same nodes, edges (in the same order), neighbours, predecessors, degrees, sizes and attributes, and fail on the same calls.", "quantifier": "the four graph classes, every sequence of calls", "why_tests_cant": "Unbounded histories of insertions and removals decide the iteration orders.", "anchors": ["pelote/graph.py:create_null_copy", "pelote/graph.py:filter_nodes", "pelote/graph.py:remove_edges", "pelote/sparsification/utils.py:Sparsifier"]}
{"id": "C85", "title": "Both ends of an edge share one attribute dict and no call fails half way", "statement": "In every graph reached by such calls the adjacency of both ends of an edge (successors and predecessors when directed) holds the very same attribute dict, which no other pair of nodes holds, which is not empty, and which has the single key 0 in a simple graph; assigning an attribute of an absent edge (KeyError) is the only call that fails.", "quantifier": "the four graph classes, every sequence of calls", "why_tests_cant": "Aliasing between dictionaries after unbounded histories.", "anchors": ["pelote/sparsification/utils.py:Sparsifier.flag_relevant_edges", "pelote/tabular_to_graph.py:edges_table_to_graph"]}
{"id": "C86", "title": "The graphs the properties quantify over are exactly those that can be built", "statement": "A graph of the model is well-formed, the hypothesis of the other properties, if and only if some sequence of calls to networkx builds it from the empty graph.", "quantifier": "every graph of the model", "why_tests_cant": "All graphs.", "anchors": ["pelote/graph.py:create_null_copy"]}
{"id": "C87", "title": "Edge filters which raise", "statement": "connected_component_orders and second_largest_connected_component_order raise exactly when the edge filter raises on some edge of the graph, with an exception raised by the filter; floatsam_threshold_learner raises KeyError or TypeError as soon as some edge has no weight or a weight which is not a number.", "quantifier": "every graph, edge filter, starting threshold and learning rate", "why_tests_cant": "All graphs and filters: edges between nodes already seen must be filtered too.", "anchors": ["pelote/graph.py:connected_component_orders", "pelote/learn.py:floatsam_threshold_learner"]}
{"id": "C88", "title": "monopartite_projection on multigraphs", "statement": "On an undirected multigraph bipartite for the part, monopartite_projection succeeds, links the same nodes as on a simple graph and never reads the weights: parallel edges count once, dot_product is the size of the intersection and cosine is binary_cosine. With cosine it raises TypeError when a kept node has an edge whose key is the weight attribute.", "quantifier": "every undirected bipartite multigraph, part, metric and attribute names", "why_tests_cant": "All multigraphs and metrics; the source leaves the case as a TODO.", "anchors": ["pelote/projection.py:monopartite_projection"]}
{"id": "C89", "title": "monopartite_projection on directed graphs", "statement": "On a directed graph bipartite for the part, for the metrics which count neighbours, monopartite_projection raises KeyError exactly when there is a path of two arrows from a kept node to a larger one which no arrow leaves; otherwise u < v are linked exactly when there is a path of two arrows from u to v, with the number of such paths as weight for the default metric. In particular nothing is linked when all the arrows leave the kept part, or all enter it.", "quantifier": "every directed bipartite graph or multigraph, part and counting metric", "why_tests_cant": "All directed graphs; the result depends on the order of the keys.", "anchors": ["pelote/projection.py:monopartite_projection", "pelote/classes/online_metrics.py"]}
{"id": "C90", "title": "monopartite_projection on directed graphs, all metrics", "statement": "On a directed simple graph bipartite for the part, monopartite_projection raises (ZeroDivisionError for pmi, KeyError for the other metrics) exactly when a path of two arrows leads from a kept node whose norm is positive to a larger one whose norm vanishes; otherwise u < v are linked exactly when the norm of u is positive and there is such a path from u to v, and the weight of the link is the metric evaluated on the paths of two arrows and on the arrows leaving u and v. Similarities such as jaccard may exceed 1.", "quantifier": "every directed simple bipartite graph, part and metric, binary64 numbers", "why_tests_cant": "All directed graphs and weights; the result depends on the order of the keys and on underflow.", "anchors": ["pelote/projection.py:monopartite_projection", "pelote/classes/online_metrics.py"]}
{"id": "C91", "title": "Predicates which raise", "statement": "remove_edges, remove_nodes and Sparsifier.remove raise exactly when the predicate raises on some edge (node) of the graph, with the first exception it raises in the order of the graph, and then leave the graph as it was; filter_edges raises the same; flag_relevant_edges and flag_redundant_edges leave flags on the edges before that one and on no other.", "quantifier": "every graph, predicate, exception and attribute", "why_tests_cant": "All graphs and all positions of the failing edge: removing while iterating, or flagging after the failing edge, would only show in some of them.", "anchors": ["pelote/graph.py:remove_edges", "pelote/graph.py:remove_nodes", "pelote/graph.py:filter_edges", "pelote/sparsification/utils.py:Sparsifier"]}
{"id": "C92", "title": "are_same_graphs is an equivalence", "statement": "are_same_graphs is reflexive, symmetric and transitive on networkx graphs.", "quantifier": "every graph", "why_tests_cant": "All pairs and triples of graphs, of all kinds.", "anchors": ["pelote/graph.py:are_same_graphs", "pelote/graph.py:have_same_edges"]}
{"id": "C93", "title": "Float arithmetic of the model is IEEE 754 binary64", "statement": "A number is left unchanged by the rounding of the model exactly when it has at most 53 significant bits and an exponent of at least -1074; the rounding returns the nearest such number, the even one when there are two; square roots are correctly rounded. Overflow is left out.", "quantifier": "every rational number; every positive float for square roots", "why_tests_cant": "All numbers: the float counterexamples of the other properties depend on it.", "anchors": ["pelote/metrics/edge_disparity.py:edge_disparity", "pelote/classes/online_metrics.py"]}
{"id": "C94", "title": "What parse_graphology_json accepts", "statement": "parse_graphology_json reads a JSON value exactly when it is a dict whose options have a type and a multi field, whose nodes and edges are absent, null or lists of dicts with hashable keys, and whose attributes are dicts; the graph is the one of the corresponding document, and it raises nothing but TypeError, KeyError, AttributeError and NetworkXError on the others.", "quantifier": "every JSON value", "why_tests_cant": "All nested values, most of which are not documents.", "anchors": ["pelote/read.py:parse_graphology_json"]}
{"id": "C95", "title": "Graphs are kept by JSON files", "statement": "A graph with string keys written by write_graphology_json, saved with json.dump and read with read_graphology_json from a path, a file or a dict is the same graph.", "quantifier": "every graph with string keys whose attributes JSON can write", "why_tests_cant": "All graphs, attribute names and values.", "anchors": ["pelote/read.py:read_graphology_json", "pelote/write.py:write_graphology_json"]}
{"id": "C96", "title": "Filters and sparsifiers compose", "statement": "Filtering edges or removing nodes twice is doing so once with both predicates, in any order; two global thresholds are one; sparsifying again with the same sparsifier changes nothing.", "quantifier": "every graph, predicate and threshold", "why_tests_cant": "All pairs of predicates and thresholds over all graphs.", "anchors": ["pelote/graph.py:filter_edges", "pelote/graph.py:remove_nodes", "pelote/sparsification/global_threshold.py:global_threshold_sparsification", "pelote/sparsification/multiscale_backbone.py:multiscale_backbone"]}
{"id": "C97", "title": "Triangular strengths add up to three times the triangles", "statement": "The values returned by triangular_strength, and by naive_triangular_strength, add up to three times the number of triangles.", "quantifier": "every graph, both values of full", "why_tests_cant": "All graphs.", "anchors": ["pelote/metrics/chiba_nishizeki.py:triangular_strength", "pelote/metrics/chiba_nishizeki.py:naive_triangular_strength"]}
{"id": "C98", "title": "Floats do not overflow", "statement": "The results of the functions which compute with floats do not depend on what floats are above 2^1023, where Python has infinities and OverflowError.", "quantifier": "every graph, weight, threshold, rate and metric, and every arithmetic which agrees with binary64 up to 2^1023", "why_tests_cant": "All graphs and weights, and all behaviours above the greatest float.", "anchors": ["pelote/graph.py:union_of_maximum_spanning_trees", "pelote/metrics/edge_disparity.py:edge_disparity", "pelote/sparsification/multiscale_backbone.py:multiscale_backbone", "pelote/sparsification/global_threshold.py:global_threshold_sparsification", "pelote/learn.py:floatsam_threshold_learner", "pelote/projection.py:monopartite_projection", "pelote/projection.py:self_similarity_projection"]}
{"id": "C99", "title": "Wrong arguments are refused", "statement": "Every function given a value which is not a networkx graph where it expects one, or a value which is not callable where it expects a function, raises TypeError and leaves the graph as it was; functions which return generators do it on call. Right calls are not affected by the checks.", "quantifier": "every function taking a graph, every value given as graph or as function, and all other arguments", "why_tests_cant": "All values and all combinations of arguments, for every function, and the unchanged graph.", "anchors": ["pelote/graph.py:check_graph", "pelote/graph.py:is_graph", "pelote/graph.py:connected_component_orders", "pelote/metrics/chiba_nishizeki.py:triangular_strength", "pelote/write.py:write_graphology_json", "pelote/sparsification/utils.py:Sparsifier"]}
{"id": "C100", "title": "Projections keep components", "statement": "Two nodes of the part are in the same component of the monopartite projection exactly when they are in the same component of the bipartite graph, with every metric.", "quantifier": "every bipartite graph, part, metric and weights", "why_tests_cant": "Paths of any length in all bipartite graphs.", "anchors": ["pelote/projection.py:monopartite_projection"]}
{"id": "C101", "title": "Weights of projections count pairs", "statement": "Without metric, the weights of the edges of a monopartite projection are ints which add up to the number of pairs of neighbours of the nodes of the other part.", "quantifier": "every bipartite graph and part", "why_tests_cant": "A sum over all edges compared with a sum over all nodes, for graphs of any size.", "anchors": ["pelote/projection.py:monopartite_projection", "pelote/classes/online_metrics.py:OnlineIntersection"]}
{"id": "C102", "title": "A table projected on a column", "statement": "The bipartite graph of a table projected on its first part has one node for each value of the first column; two are linked exactly when some value of the second column is in a row with each; the weight is the number of such values without metric, and the sum over the values of the second column of the products of numbers of rows with the dot product.", "quantifier": "every table, names of columns, parts and attributes", "why_tests_cant": "Two functions in sequence on all tables: the graph built by the first must meet what the second assumes.", "anchors": ["pelote/tabular_to_graph.py:table_to_bipartite_graph", "pelote/projection.py:monopartite_projection"]}
{"id": "C103", "title": "The pairs of a table which are in enough rows", "statement": "edges_table_to_graph with count_rows_as_weight followed by global_threshold_sparsification on the same weight attribute leaves every node of the table and exactly the pairs which are in at least (at most, with reverse) as many rows as the threshold, with the number of rows as weight.", "quantifier": "every table whose rows have both columns, directed or not, and every threshold", "why_tests_cant": "All tables, edge data and thresholds.", "anchors": ["pelote/tabular_to_graph.py:edges_table_to_graph", "pelote/sparsification/global_threshold.py:global_threshold_sparsification"]}
{"id": "C104", "title": "Sparsifying with the learned threshold", "statement": "global_threshold_sparsification with the threshold returned by floatsam_threshold_learner gives a graph whose second largest component has fewer than max_drifter_order nodes, and one more learning rate gives a graph where it has at least as many.", "quantifier": "every undirected graph with numeric weights, starting threshold and rate for which the learner returns", "why_tests_cant": "All graphs, weights and parameters.", "anchors": ["pelote/learn.py:floatsam_threshold_learner", "pelote/sparsification/global_threshold.py:global_threshold_sparsification"]}
{"id": "C105", "title": "on_epoch is called at each epoch", "statement": "floatsam_threshold_learner calls on_epoch once per epoch in order, on the epochs of C80; an exception it raises goes through at once and the following epochs are not run, so that a callback can stop a learner which does not return; a callback which changes the graph changes what is learned: the threshold is the last one before a component drifts in the graph of the last epoch.", "quantifier": "every graph, every callback with a state of its own", "why_tests_cant": "Callbacks are arbitrary functions.", "anchors": ["pelote/learn.py:floatsam_threshold_learner"]}
{"id": "C106", "title": "UnionFind reads negative ints from the end", "statement": "A UnionFind of capacity n accepts any int from -n to n-1: find, cardinality, union and are_in_same_set given a negative x do exactly what they do given n+x, find returns n+x's root (never a negative int), and any other int raises IndexError and changes nothing.", "quantifier": "every capacity, every history of calls with any ints", "why_tests_cant": "All histories.", "anchors": ["pelote/classes/union_find.py:UnionFind"]}
{"id": "C107", "title": "weight_threshold is a global threshold", "statement": "monopartite_projection with weight_threshold=t gives the graph which global_threshold_sparsification gives with threshold t from the projection without threshold: same nodes in the same order, same edges and attributes. Hence a threshold learned by floatsam_threshold_learner on a projection can be given as weight_threshold, and the second component of the new projection then has fewer nodes than max_drifter_order.", "quantifier": "every graph, metric, part and positive threshold for which the projection is returned", "why_tests_cant": "All graphs, metrics and thresholds.", "anchors": ["pelote/projection.py:monopartite_projection", "pelote/sparsification/global_threshold.py:global_threshold_sparsification", "pelote/learn.py:floatsam_threshold_learner"]}
{"id": "C108", "title": "len of a DisjointSet counts the free places", "statement": "len of a DisjointSet is its capacity minus the number of unions which returned True since the last clear: it is not the number of sets of the keys it has seen, but this number plus the places which no key has taken.", "quantifier": "every capacity and history of calls with any keys in which no call raised OverflowError; for the number of sets, histories in which no call raised", "why_tests_cant": "All histories.", "anchors": ["pelote/classes/union_find.py:DisjointSet"]}
{"id": "C109", "title": "Projections read only links and weights; multigraphs are projected without weights", "statement": "monopartite_projection reads, of the attributes of edges, only the weight, and the attribute of the part when bipartition is checked by value: graphs which agree on these give the same result or error. A multigraph, directed or not, gives the result of the simple graph with the same nodes and links and no weights, when none of its edge keys is the name of the weight attribute (or of the part, when bipartition is checked by value).", "quantifier": "every graph, part, attributes, metric name, check and threshold", "why_tests_cant": "All graphs, arguments and attributes.", "anchors": ["pelote/projection.py:monopartite_projection"]}
{"id": "C110", "title": "Results do not depend on the names of nodes", "statement": "Giving other, distinct names to the nodes of a graph gives the same results with the other names: components and their orders, filtered graphs, maximum spanning trees, threshold sparsification, learned thresholds, triangles, similarity projections, edge disparities, backbones, triangular strengths and monopartite projections.", "quantifier": "every graph and every injective renaming", "why_tests_cant": "All graphs and renamings.", "anchors": ["pelote/graph.py", "pelote/projection.py", "pelote/learn.py:floatsam_threshold_learner", "pelote/metrics/edge_disparity.py", "pelote/metrics/chiba_nishizeki.py", "pelote/sparsification"]}
{"id": "C111", "title": "Attributes which are not asked for change nothing", "statement": "Two graphs with the same nodes and edges give the same components, component orders, triangles and triangular strengths whatever their attributes, and still have the same nodes and edges when leaves or small components are removed.  If their edges have the same values for the given weight attribute, they give the same maximum spanning trees, edge disparities, learned thresholds and epochs, and the same relevant and redundant edges for the threshold and the backbone sparsifiers, whose results then have the same nodes and edges.", "quantifier": "every pair of graphs which differ only by other attributes of the graph, its nodes and its edges, every attribute and parameter", "why_tests_cant": "All pairs of graphs and all attributes.", "anchors": ["pelote/graph.py", "pelote/learn.py:floatsam_threshold_learner", "pelote/metrics/edge_disparity.py", "pelote/metrics/chiba_nishizeki.py", "pelote/sparsification"]}
{"id": "C112", "title": "repr of a UnionFind shows its cells, capacity and number of sets", "statement": "At any time of its life, repr of a UnionFind shows the type code chosen for its capacity, its capacity and the number of its sets, in decimal.  Two UnionFinds with the same repr have the same capacity and the same number of sets.", "quantifier": "every capacity and every sequence of operations", "why_tests_cant": "All capacities and histories.", "anchors": ["pelote/classes/union_find.py:UnionFind.__repr__"]}
{"id": "C113", "title": "A part is a set of nodes, however it is given", "statement": "Parts which have the same nodes, given by the value of an attribute or by a collection, give the same monopartite projection, or the same exception without bipartition_check.  bipartition_check only raises: a projection which passes it is the one made without it.  The order and repetitions of a collection change nothing.", "quantifier": "every graph, pair of parts with the same nodes, metric and threshold", "why_tests_cant": "All graphs and parts.", "anchors": ["pelote/projection.py:monopartite_projection"]}
{"id": "C114", "title": "A UnionFind made with any int", "statement": "A UnionFind made with a capacity which is not negative behaves as in the other properties.  The constructor does not refuse a negative capacity: len then always raises ValueError, find, union, cardinality and are_in_same_set always raise IndexError, whatever is called before, and clear does nothing.", "quantifier": "every int and every sequence of operations", "why_tests_cant": "All ints and histories.", "anchors": ["pelote/classes/union_find.py:UnionFind.__init__", "pelote/classes/union_find.py:UnionFind.allocate", "pelote/classes/union_find.py:UnionFind.clear"]}
{"id": "C115", "title": "Results do not depend on the order in which a graph was built", "statement": "Two graphs with the same nodes, edges and attributes, inserted in any order, have the same components, the same orders of components up to their order, the same triangles, the same triangular strengths, the same disparities, the same edges above a threshold, the same multiscale backbones, largest connected components of the same size, are the same for are_same_graphs, and are still the same graph in another order after remove_nodes, filter_nodes, remove_leaves or remove_edges. Their projections have the same links, with equal weights.", "quantifier": "every pair of graphs with the same nodes, edges and attributes, and every iteration order of sets", "why_tests_cant": "All graphs and all insertion orders.", "anchors": ["pelote/graph.py:largest_connected_component", "pelote/graph.py:connected_component_orders", "pelote/projection.py:monopartite_projection", "pelote/metrics/edge_disparity.py", "pelote/metrics/chiba_nishizeki.py", "pelote/sparsification/global_threshold.py", "pelote/sparsification/multiscale_backbone.py"]}
