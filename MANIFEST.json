{
 "claims": [
  {
   "property": "C01",
   "status": "proved",
   "theorems": [
    "C01_same_set_iff_closure"
   ],
   "note": "every history of calls, including raising ones and clear()"
  },
  {
   "property": "C02",
   "status": "proved",
   "theorems": [
    "C02_find_canonical"
   ],
   "note": "termination stated as: every fuel >= capacity gives the same Ok answer"
  },
  {
   "property": "C03",
   "status": "proved",
   "theorems": [
    "C03_union_result",
    "C03_len_counts_sets"
   ],
   "note": ""
  },
  {
   "property": "C04",
   "status": "proved",
   "theorems": [
    "C04_cardinality_counts"
   ],
   "note": ""
  },
  {
   "property": "C05",
   "status": "partial",
   "theorems": [
    "C05_union_never_raises_refuted",
    "C05_union_raises_iff_partial",
    "C05_union_total_partial"
   ],
   "note": "refuted as stated: OverflowError at capacities 256, 65536, 2^64 (and 2^32 where unsigned long is 32 bits); exact characterisation of when union raises proved; holds for all other capacities"
  },
  {
   "property": "C06",
   "status": "proved",
   "theorems": [
    "C06_clear_restores",
    "C06_ds_clear_restores"
   ],
   "note": ""
  },
  {
   "property": "C07",
   "status": "proved",
   "theorems": [
    "C07_same_set_iff_closure",
    "C07_union_result",
    "C07_cardinality_counts",
    "C07_beyond_capacity"
   ],
   "note": ""
  },
  {
   "property": "C08",
   "status": "proved",
   "theorems": [
    "C08_ids_in_first_seen_order",
    "C08_ids_injective",
    "C08_clear"
   ],
   "note": ""
  },
  {
   "property": "C09",
   "status": "partial",
   "theorems": [
    "C09_logarithmic_find_refuted",
    "C09_linear_find_partial"
   ],
   "note": "tight linear bound proved: at most as many turns as the set has elements; the logarithmic bound is refuted: ranks of the arguments instead of the roots are compared, histories of n unions give find paths of length n"
  },
  {
   "property": "C10",
   "status": "proved",
   "theorems": [
    "C10_component_orders_undirected",
    "C10_component_orders_no_filter"
   ],
   "note": "edge filters are pure and do not raise; the generator is consumed to its end"
  },
  {
   "property": "C11",
   "status": "proved",
   "theorems": [
    "C11_component_orders_partition"
   ],
   "note": "pure, non-raising filters"
  },
  {
   "property": "C12",
   "status": "partial",
   "theorems": [
    "C12_component_orders_directed_refuted",
    "C12_component_orders_directed_partial",
    "C12_exact"
   ],
   "note": "refuted as stated: only outgoing edges are followed; holds when every edge can be walked back; C12_exact gives the yielded sizes for every graph"
  },
  {
   "property": "C13",
   "status": "partial",
   "theorems": [
    "C13_returns_component",
    "C13_largest_component_refuted",
    "C13_largest_component_partial",
    "C13_exact"
   ],
   "note": "refuted as stated (component sizes 3,1,4 give the one of size 3): the early exit subtracts the largest size instead of the current one; always a component; maximal if the sizes before some greatest component are non-decreasing; C13_exact gives the size returned and exactly when it is the greatest"
  },
  {
   "property": "C14",
   "status": "proved",
   "theorems": [
    "C14_crop",
    "C14_crop_null"
   ],
   "note": "relative to largest_connected_component"
  },
  {
   "property": "C15",
   "status": "partial",
   "theorems": [
    "C15_view",
    "C15_copy_partial",
    "C15_copy_refuted"
   ],
   "note": "as_view=True proved; as_view=False refuted: it keeps all the nodes; its edges are proved right"
  },
  {
   "property": "C16",
   "status": "proved",
   "theorems": [
    "C16_largest_order",
    "C16_second_largest_order"
   ],
   "note": ""
  },
  {
   "property": "C17",
   "status": "proved",
   "theorems": [
    "C17_are_same_graphs",
    "C17_are_same_graphs_attributes",
    "C17_equivalence"
   ],
   "note": ""
  },
  {
   "property": "C18",
   "status": "partial",
   "theorems": [
    "C18_multiplicities_refuted",
    "C18_multiplicities_partial",
    "C18_exact"
   ],
   "note": "refuted as stated: only the total number of edges is compared; exact when A has nowhere more parallel edges than B; C18_exact characterises the answer for all graphs"
  },
  {
   "property": "C19",
   "status": "proved",
   "theorems": [
    "C19_remove_edges",
    "C19_remove_edges_raises"
   ],
   "note": ""
  },
  {
   "property": "C20",
   "status": "proved",
   "theorems": [
    "C20_filter_edges"
   ],
   "note": "edge attribute names must be usable as keyword arguments of add_edge (edge_names): the code calls add_edge(u, v, **attr)"
  },
  {
   "property": "C21",
   "status": "partial",
   "theorems": [
    "C21_agree_partial",
    "C21_agree_multigraph_partial",
    "C21_remove_edges_multigraph",
    "C21_agree_refuted"
   ],
   "note": "simple graphs proved; refuted on multigraphs: remove_edges drops the edges inserted last; same multiplicities proved, and exactly which edges remain"
  },
  {
   "property": "C22",
   "status": "proved",
   "theorems": [
    "C22_remove_nodes"
   ],
   "note": ""
  },
  {
   "property": "C23",
   "status": "partial",
   "theorems": [
    "C23_filter_nodes_refuted",
    "C23_filter_nodes_partial",
    "C23_filter_nodes_no_loops",
    "C23_exact"
   ],
   "note": "refuted as stated: self-loops of undirected graphs are dropped; exact description proved, and the full claim for directed graphs or without self-loops; C23_exact also says which graphs raise TypeError (adjacent nodes which cannot be compared, attributes which cannot be arguments)"
  },
  {
   "property": "C24",
   "status": "partial",
   "theorems": [
    "C24_remove_leaves",
    "C24_filter_leaves_partial",
    "C24_filter_leaves_refuted",
    "C24_exact"
   ],
   "note": "remove_leaves proved for every graph; filter_leaves refuted with self-loops, proved otherwise; C24_exact describes it for every graph"
  },
  {
   "property": "C25",
   "status": "partial",
   "theorems": [
    "C25_msf_edges_yielded_refuted",
    "C25_msf_edges_yielded_partial",
    "C25_forests_exist"
   ],
   "note": "refuted at binary64 when ints above 2^53 are mixed with floats (the int is rounded by the subtraction); proved, with float rounding, when the weights are all ints or all exactly floats; for every iteration that finishes, when it may raise is C28"
  },
  {
   "property": "C26",
   "status": "partial",
   "theorems": [
    "C26_only_msf_edges_refuted",
    "C26_only_msf_edges_partial",
    "C26_binary64_partial",
    "C26_exact",
    "C26_any_numbers"
   ],
   "note": "refuted when different weights are at most 1e-8 apart; otherwise, for weights as in C25, the yielded edges are exactly the union of the maximum spanning forests; C26_exact gives the edges yielded for all such weights and C26_any_numbers for any numbers and rounding"
  },
  {
   "property": "C27",
   "status": "proved",
   "theorems": [
    "C27_connectivity"
   ],
   "note": "for every iteration that finishes; when it may raise is C28"
  },
  {
   "property": "C28",
   "status": "partial",
   "theorems": [
    "C28_never_raises_refuted",
    "C28_never_raises_partial",
    "C28_exact"
   ],
   "note": "refuted: OverflowError for a graph of 256 nodes; proved when the order is not 256, 65536, 2^32 (32-bit long) or 2^64, or the graph is not connected; C28_exact: it raises exactly at these orders when the buckets but the last one connect all the nodes"
  },
  {
   "property": "C29",
   "status": "proved",
   "theorems": [
    "C29_threshold",
    "C29_missing_weight",
    "C29_monotone"
   ],
   "note": "edge attribute names must be usable as keyword arguments of add_edge (edge_names), since filtering calls add_edge(u, v, **attr)"
  },
  {
   "property": "C30",
   "status": "proved",
   "theorems": [
    "C30_partition",
    "C30_relevant"
   ],
   "note": "for every predicate factory, including those that raise (both then raise the same exception)"
  },
  {
   "property": "C31",
   "status": "partial",
   "theorems": [
    "C31_remove_filter_refuted",
    "C31_remove_filter_partial",
    "C31_multigraph"
   ],
   "note": "refuted for multigraphs (remove passes 3-tuples whose third item networkx takes for a key: TypeError); proved for Graph and DiGraph"
  },
  {
   "property": "C32",
   "status": "proved",
   "theorems": [
    "C32_components",
    "C32_superset",
    "C32_returns"
   ],
   "note": "C32_returns: the call does return under the conditions of C28"
  },
  {
   "property": "C33",
   "status": "partial",
   "theorems": [
    "C33_weight_attribute_refuted",
    "C33_weight_attribute_partial",
    "C33_exact",
    "C33_keep_connected"
   ],
   "note": "refuted: keep_connected always uses the attribute weight; proved for edge_weight_attr = weight, simple graphs and weights as in C26; C33_exact gives the edges kept for any attribute and multigraphs"
  },
  {
   "property": "C34",
   "status": "proved",
   "theorems": [
    "C34_flag_relevant",
    "C34_flag_redundant",
    "C34_relevant_generator",
    "C34_redundant_generator",
    "C34_both_generators"
   ],
   "note": "the generator theorems say the same of sparsifiers built from generators on simple graphs; with two generators and no predicate full=True raises TypeError (C35_both_generators)"
  },
  {
   "property": "C35",
   "status": "proved",
   "theorems": [
    "C35_relevant_only",
    "C35_redundant_only",
    "C35_both_generators",
    "C35_nothing"
   ],
   "note": ""
  },
  {
   "property": "C36",
   "status": "proved",
   "theorems": [
    "C36_backbone",
    "C36_monotone",
    "C36_all",
    "C36_keep_connected"
   ],
   "note": "for exact arithmetic and for any rounding of floats satisfying sound (binary64 does); edge attribute names must be usable as keyword arguments of add_edge (edge_names)"
  },
  {
   "property": "C37",
   "status": "proved",
   "theorems": [
    "C37_disparity",
    "C37_rounded"
   ],
   "note": "formula in exact arithmetic; one entry per edge and scores in [0,1] for any sound rounding of floats, binary64 included"
  },
  {
   "property": "C38",
   "status": "proved",
   "theorems": [
    "C38_reverse",
    "C38_rounded"
   ],
   "note": "C38_rounded: for any sound rounding of floats; both calls return, or both raise TypeError (linked nodes that cannot be compared)"
  },
  {
   "property": "C39",
   "status": "partial",
   "theorems": [
    "C39_rescaling",
    "C39_power_of_two",
    "C39_rounding_refuted"
   ],
   "note": "proved in exact arithmetic, for int weights and factors under any rounding, and for binary64 float weights multiplied by powers of two (same adjacency order); false in general for binary64 float weights (C39_rounding_refuted), where scores change by rounding errors"
  },
  {
   "property": "C40",
   "status": "proved",
   "theorems": [
    "C40_triangles",
    "C40_any_view"
   ],
   "note": "for any order in which Python iterates the sets of an undirected view, and whatever way the view counts degrees"
  },
  {
   "property": "C41",
   "status": "proved",
   "theorems": [
    "C41_strength"
   ],
   "note": "proved for every graph with comparable keys and any order of sets; common neighbours other than the two ends, so that loops have none"
  },
  {
   "property": "C42",
   "status": "partial",
   "theorems": [
    "C42_zero_entries_refuted",
    "C42_loops_refuted",
    "C42_agree_partial",
    "C42_naive",
    "C42_loops"
   ],
   "note": "every entry of the naive method is stated exactly (C42_naive); refuted: the naive method stores zero entries without full, and the number of neighbours for a self-loop; proved to agree everywhere else, hence equal for full=True on loop-free graphs"
  },
  {
   "property": "C43",
   "status": "partial",
   "theorems": [
    "C43_nodes",
    "C43_empty_part",
    "C43_null_graph",
    "C43_hashable_collection_refuted",
    "C43_hashable_collection"
   ],
   "note": "proved for attribute values and for unhashable collections (sets, lists); refuted for hashable collections (tuples, frozensets), which are taken for a part name and raise TypeError"
  },
  {
   "property": "C44",
   "status": "partial",
   "theorems": [
    "C44_links_partial",
    "C44_binary64",
    "C44_exact",
    "C44_zero_weights_refuted",
    "C44_zero_weights_raise_refuted",
    "C44_underflow_refuted"
   ],
   "note": "refuted for the cosine metric when all the weights of a node are 0, or so small that their squares round to 0 (its norm is not stored: the link is missing, or KeyError); proved for every other bipartite graph and every metric, the weight being the metric defined by sets of neighbours and scalar products; with binary64 numbers and any weights, the weight is the quotient, the square roots and the sums which Python computes, products being added in some order of the common neighbours; C44_exact: for every bipartite graph and metric, either KeyError, exactly when a node whose norm vanishes shares a neighbour with a smaller one whose norm does not, or links exactly between the sharing nodes whose norms do not vanish"
  },
  {
   "property": "C45",
   "status": "partial",
   "theorems": [
    "C45_range",
    "C45_binary64",
    "C45_range_cosine",
    "C45_cosine_binary64_partial",
    "C45_cosine_floats_partial",
    "C45_cosine_refuted",
    "C45_cosine_tiny_refuted"
   ],
   "note": "jaccard, overlap and dice for any sound rounding, (0, 1] for binary64; cosines in exact arithmetic up to the precision of the square root, for binary64 with int weights at most 1 + 3 * 2^-52 (at most 1 is refuted: 3 / (sqrt 3 * sqrt 3)), with float weights in [2^-250, 2^250] at most 1 + (2 n + 9) 2^-51 for n nodes; for smaller float weights a bound is refuted (a cosine of 2 between weights near 2^-537)"
  },
  {
   "property": "C46",
   "status": "proved",
   "theorems": [
    "C46_threshold",
    "C46_bad_threshold"
   ],
   "note": "holds without bipartiteness, for every metric and graph, including the errors"
  },
  {
   "property": "C47",
   "status": "partial",
   "theorems": [
    "C47_attribute_refuted",
    "C47_collection_partial",
    "C47_attribute_reads_edges",
    "C47_attribute_check_ignored"
   ],
   "note": "refuted for parts given by attribute: the attributes of the edge are read instead of those of the neighbour; proved for (unhashable) collections; exact behaviour of the check for attributes also proved"
  },
  {
   "property": "C48",
   "status": "proved",
   "theorems": [
    "C48_distances"
   ],
   "note": "for directed graphs and multigraphs, any limit"
  },
  {
   "property": "C49",
   "status": "proved",
   "theorems": [
    "C49_depth_one"
   ],
   "note": "also on directed multigraphs; self-loops never count; the quotient is rounded, positive for binary64"
  },
  {
   "property": "C50",
   "status": "partial",
   "theorems": [
    "C50_actual_radii",
    "C50_radius_partial",
    "C50_radius_refuted",
    "C50_order_refuted"
   ],
   "note": "refuted: the loops assign depth, which shrinks the radius for the nodes which follow; proved when every node which reaches another one reaches one at distance exactly d both ways (always true for d=1); the radii actually used are characterised for every depth"
  },
  {
   "property": "C51",
   "status": "proved",
   "theorems": [
    "C51_counts",
    "C51_built"
   ],
   "note": "cells compared with ==; no cell is NaN"
  },
  {
   "property": "C52",
   "status": "proved",
   "theorems": [
    "C52_nodes",
    "C52_lacking",
    "C52_cells"
   ],
   "note": "nodes are 0..n-1, one for each distinct (column, value); with == equal values merged (1 and 1.0)"
  },
  {
   "property": "C53",
   "status": "proved",
   "theorems": [
    "C53_first_row",
    "C53_first_row_disjoint"
   ],
   "note": "both modes of disjoint_keys; callables are pure functions returning dicts with distinct keys"
  },
  {
   "property": "C54",
   "status": "proved",
   "theorems": [
    "C54_disjoint",
    "C54_failure"
   ],
   "note": "cells are the node keys of the model (not None, bool or float)"
  },
  {
   "property": "C55",
   "status": "proved",
   "theorems": [
    "C55_last_row",
    "C55_built"
   ],
   "note": "cells of keys are the node keys of the model"
  },
  {
   "property": "C56",
   "status": "proved",
   "theorems": [
    "C56_counts",
    "C55_built"
   ],
   "note": "cells of keys are the node keys of the model"
  },
  {
   "property": "C57",
   "status": "proved",
   "theorems": [
    "C57_nodes",
    "C57_missing_added",
    "C57_built",
    "C57_raises"
   ],
   "note": "the documentation says the default is True and describes the option inverted; the code is as in the statement"
  },
  {
   "property": "C58",
   "status": "proved",
   "theorems": [
    "C58_iterate",
    "C58_bipartite",
    "C58_edges",
    "C58_tables"
   ],
   "note": "the selected columns must exist; a DataFrame with rows but no column is excluded (it gives no rows)"
  },
  {
   "property": "C59",
   "status": "partial",
   "theorems": [
    "C59_exact",
    "C59_refuted",
    "C59_rounding_refuted"
   ],
   "note": "refuted as stated: fails (KeyError) for a graph without edges, whose DataFrame has no columns; None in a column of numbers becomes NaN; an int beside a float is rounded (2^53 + 1 comes back as 2^53).  C59_exact: the graph comes back iff it has edges and its columns are clean of these; in all other cases with edges it comes back with what the DataFrames show; values compared with == and graph attributes lost"
  },
  {
   "property": "C60",
   "status": "partial",
   "theorems": [
    "C60_nodes",
    "C60_index",
    "C60_edges",
    "C60_refuted"
   ],
   "note": "false when an attribute, or a column of node data, has the name of the column, or when the two columns have the same name; proved otherwise"
  },
  {
   "property": "C61",
   "status": "partial",
   "theorems": [
    "C61_round_trip",
    "C61_exact",
    "C61_round_trip_refuted"
   ],
   "note": "proved when no attribute is named like a parameter of a networkx method (self, node_for_adding, u_of_edge, v_of_edge, incoming_graph_data) and that condition is shown necessary; refuted otherwise: reading raises, or drops a graph attribute incoming_graph_data = None"
  },
  {
   "property": "C62",
   "status": "partial",
   "theorems": [
    "C62_int_keys",
    "C62_exact",
    "C62_int_keys_refuted"
   ],
   "note": "proved when no attribute is named like a parameter of a networkx method, and exactly then (C62_exact); refuted otherwise, see C61"
  },
  {
   "property": "C63",
   "status": "partial",
   "theorems": [
    "C63_multigraphs",
    "C63_numbered_multigraphs",
    "C63_exact",
    "C63_multigraphs_refuted"
   ],
   "note": "proved when no attribute is named like a parameter of a networkx method, and exactly then (C63_exact); refuted otherwise: an edge attribute named key is taken as the edge key when reading and parallel edges are merged"
  },
  {
   "property": "C64",
   "status": "partial",
   "theorems": [
    "C64_distinct_nodes",
    "C64_mixed_keys",
    "C64_mixed_keys_refuted"
   ],
   "note": "proved without allow_mixed_keys; with it, proved exactly when no int has the representation of another key and refuted otherwise, as the docstring warns"
  },
  {
   "property": "C65",
   "status": "proved",
   "theorems": [
    "C65_rejected"
   ],
   "note": ""
  },
  {
   "property": "C66",
   "status": "proved",
   "theorems": [
    "C66_homogeneous",
    "C66_heterogeneous",
    "C66_accepted",
    "C66_no_options"
   ],
   "note": "a heterogeneous document which also lacks a required field may raise KeyError instead; one whose attributes include incoming_graph_data is also rejected, possibly with NetworkXError"
  },
  {
   "property": "C67",
   "status": "proved",
   "theorems": [
    "C67_counting_sort_sorts"
   ],
   "note": "lists of fewer than 2^64 items (beyond, no array type exists)"
  },
  {
   "property": "C68",
   "status": "partial",
   "theorems": [
    "C68_like_sorted_refuted",
    "C68_empty_refuted",
    "C68_like_sorted_partial"
   ],
   "note": "refuted as stated: equal keys come out reversed in forward mode and the empty list raises TypeError; proved: reverse=True is exactly sorted, forward mode is sorted of the reversed list"
  },
  {
   "property": "C69",
   "status": "proved",
   "theorems": [
    "C69_smallest_representation"
   ],
   "note": ""
  },
  {
   "property": "C70",
   "status": "proved",
   "theorems": [
    "C70_intersection_size",
    "C70_symmetric"
   ],
   "note": ""
  },
  {
   "property": "C71",
   "status": "proved",
   "theorems": [
    "C71_mixed_types"
   ],
   "note": ""
  },
  {
   "property": "C72",
   "status": "partial",
   "theorems": [
    "C72_threshold_undirected_partial",
    "C72_exact",
    "C72_returns",
    "C72_no_exception",
    "C72_no_edges",
    "C72_directed_refuted"
   ],
   "note": "proved for undirected graphs and multigraphs, with thresholds computed by rounded additions (C72_exact: start + k*rate in exact arithmetic); refuted for directed graphs, whose components are computed following outgoing edges only (C12)"
  },
  {
   "property": "C73",
   "status": "partial",
   "theorems": [
    "C73_terminates_iff",
    "C73_terminates_partial",
    "C73_binary64_partial",
    "C73_stuck",
    "C73_rounding_refuted",
    "C73_last_chance",
    "C73_diverges",
    "C73_single_node_diverges",
    "C73_terminates_refuted"
   ],
   "note": "refuted: with the default parameters the complete graph on 8 nodes with equal weights makes it loop forever; proved when max_drifter_order <= 1 and there are two nodes, in exact arithmetic, on ints, and in binary64 when weights are below rate*(2^53-1); refuted in binary64 when adding the rate does not change the threshold; the terminating inputs are characterised exactly"
  },
  {
   "property": "C74",
   "status": "proved",
   "theorems": [
    "C74_append_true_once",
    "C74_contains",
    "C74_fifo",
    "C74_lifo",
    "C74_lifo_len",
    "C74_unseen",
    "C74_unseen_foreign_refuted"
   ],
   "note": "the unseen part assumes only nodes of the graph are appended; shown false otherwise"
  },
  {
   "property": "C75",
   "status": "partial",
   "theorems": [
    "C75_restored",
    "C75_hidden_inside_partial",
    "C75_hidden_inside_refuted"
   ],
   "note": "restoration proved for every program; hiding proved for programs without nested blocks and refuted for nested ones"
  },
  {
   "property": "C76",
   "status": "partial",
   "theorems": [
    "C76_reflexive_attributes_refuted",
    "C76_reflexive_partial"
   ],
   "note": "refuted for every multigraph with at least one edge; reflexive exactly when the graph is simple or has no edge"
  },
  {
   "property": "C77",
   "status": "partial",
   "theorems": [
    "C77_generator_keep_connected_refuted",
    "C77_components_refuted",
    "C77_relevant_partial",
    "C77_redundant_partial",
    "C77_exact",
    "C77_components",
    "C77_components_exact"
   ],
   "note": "refuted: the given generator stays undecorated while the derived predicate is decorated with the spanning-tree edges, so such an edge is neither relevant nor redundant and filter drops it.  C77_exact: relevant and redundant edges cover the graph iff the generator yields the spanning trees (for redundant edges: are disjoint iff it yields none of them); components are preserved with a generator of redundant edges, and are those of the yielded edges with a generator of relevant ones"
  },
  {
   "property": "C78",
   "status": "partial",
   "theorems": [
    "C78_accepts_bipartite_refuted",
    "C78_accepts_bipartite_partial",
    "C78_exact",
    "C78_unweighted",
    "C78_names_refuted"
   ],
   "note": "refuted when an edge has an attribute called like the part attribute with the kept value, and when nodes of the part which share a neighbour cannot be compared (0 and 'a'); C78_exact: for every simple bipartite graph, directed or not, and every metric, the graphs accepted are exactly those whose kept attributes are names which are not arguments of add_node, whose edges do not look like nodes of the part, whose nodes two edges apart compare, and where no norm is missing"
  },
  {
   "property": "C79",
   "status": "partial",
   "theorems": [
    "C79_negative_rate_refuted",
    "C79_useless_rate"
   ],
   "note": "refuted: the edges of weight at least the threshold are kept whatever the sign of the rate; from a low threshold the learner returns at once or never"
  },
  {
   "property": "C80",
   "status": "proved",
   "theorems": [
    "C80_epochs"
   ],
   "note": "a callback which raises is not modelled"
  },
  {
   "property": "C81",
   "status": "proved",
   "theorems": [
    "C81_read"
   ],
   "note": ""
  },
  {
   "property": "C82",
   "status": "proved",
   "theorems": [
    "C82_tables"
   ],
   "note": ""
  },
  {
   "property": "C83",
   "status": "proved",
   "theorems": [
    "C83_edges",
    "C83_columns",
    "C83_nodes"
   ],
   "note": "the conversions of columns by pandas (ints to floats, None to NaN) are part of the model"
  },
  {
   "property": "C84",
   "status": "proved",
   "theorems": [
    "C84_networkx"
   ],
   "note": "the transcription of networkx's methods (NxDicts.v) is trusted; views (subgraph, to_undirected) and attribute names clashing with parameters are outside it"
  },
  {
   "property": "C85",
   "status": "proved",
   "theorems": [
    "C85_dictionaries",
    "C85_errors"
   ],
   "note": ""
  },
  {
   "property": "C86",
   "status": "proved",
   "theorems": [
    "C86_well_formed"
   ],
   "note": ""
  },
  {
   "property": "C87",
   "status": "proved",
   "theorems": [
    "C87_filter_raises",
    "C87_learner"
   ],
   "note": "For every graph and filter, raising exactly when some edge makes the filter raise; the learner raises in its first epoch."
  },
  {
   "property": "C88",
   "status": "proved",
   "theorems": [
    "C88_multigraph",
    "C88_key_named_weight"
   ],
   "note": "For every undirected multigraph bipartite for the part, at binary64 or any sound rounding; the key of no edge is the weight attribute for the metrics reading weights, otherwise a TypeError is proved for the cosine."
  },
  {
   "property": "C89",
   "status": "proved",
   "theorems": [
    "C89_directed",
    "C89_one_way",
    "C89_as_undirected_refuted"
   ],
   "note": "For every directed bipartite graph or multigraph and the metrics None, jaccard, overlap, dice and binary_cosine; that directions do not matter is refuted."
  },
  {
   "property": "C90",
   "status": "proved",
   "theorems": [
    "C90_directed",
    "C90_above_one_refuted"
   ],
   "note": "All eight metrics on directed simple graphs at binary64, with the weights; that similarities stay at most 1 is refuted."
  },
  {
   "property": "C91",
   "status": "proved",
   "theorems": [
    "C91_remove_edges",
    "C91_remove_nodes",
    "C91_sparsifier_remove",
    "C91_sparsifier_raises",
    "C91_filter_edges",
    "C91_flags"
   ],
   "note": "Sparsifiers made from a predicate; on multigraphs Sparsifier.remove raises TypeError (C31) and still leaves the graph as it was. filter_edges: when attributes can be arguments of add_edge."
  },
  {
   "property": "C92",
   "status": "partial",
   "theorems": [
    "C92_preorder",
    "C92_symmetric_iff",
    "C92_symmetric_refuted",
    "C92_kinds_refuted"
   ],
   "note": "without attributes, reflexive and transitive on each kind of graphs, multigraphs included (with attributes see C17 and C76); symmetry refuted on multigraphs, where only the number of edges and the links of the first graph are compared, with the exact condition; transitivity refuted on graphs of different kinds, which are compared whatever the directions"
  },
  {
   "property": "C93",
   "status": "proved",
   "theorems": [
    "C93_floats",
    "C93_round",
    "C93_sqrt"
   ],
   "note": "about the model of floats used in the refutations and in the theorems named binary64: its floats, its rounding and its square root are characterised without reference to their definitions"
  },
  {
   "property": "C94",
   "status": "proved",
   "theorems": [
    "C94_exact",
    "C94_headers",
    "C94_one_reading",
    "C94_documents",
    "C94_errors"
   ],
   "note": "data is any value made of dicts, lists and scalars; None, bools and floats as keys are reported as TypeError; the values which are read are given by the relation reads_as"
  },
  {
   "property": "C95",
   "status": "partial",
   "theorems": [
    "C95_targets",
    "C95_saved",
    "C95_round_trip",
    "C95_multigraphs",
    "C95_names_refuted"
   ],
   "note": "refuted for graph attributes whose names are not strings, which are not coerced: they are refused from the dict and renamed in a file; proved for the names which C61 accepts and values which JSON can write; the text of files is not modelled"
  },
  {
   "property": "C96",
   "status": "partial",
   "theorems": [
    "C96_filters",
    "C96_filter_twice",
    "C96_filters_commute",
    "C96_remove_nodes",
    "C96_thresholds",
    "C96_keep_connected_partial",
    "C96_keep_connected_twice",
    "C96_keep_connected_refuted",
    "C96_backbone_refuted"
   ],
   "note": "refuted for multiscale_backbone, which judges what is left anew, and for keep_connected when weights are within 1e-8 of each other; proved for filter_edges, remove_nodes and global thresholds, and for keep_connected with weights equal or far apart (C96_keep_connected_twice: the second call returns)"
  },
  {
   "property": "C97",
   "status": "partial",
   "theorems": [
    "C97_total",
    "C97_naive_total",
    "C97_naive_total_refuted",
    "C97_naive_exact"
   ],
   "note": "proved for triangular_strength whenever it returns; refuted for naive_triangular_strength on graphs with loops, proved for it on graphs without; C97_naive_exact gives its total for every graph"
  },
  {
   "property": "C98",
   "status": "partial",
   "theorems": [
    "C98_trees",
    "C98_disparity",
    "C98_threshold",
    "C98_backbone",
    "C98_learner",
    "C98_projection",
    "C98_self_similarity",
    "C98_any_weights_refuted"
   ],
   "note": "refuted for weights near 2^1023, whose sum overflows in edge_disparity; proved for weights up to 2^1022 (spanning trees, keep_connected), 2^970 (disparity, backbone; thresholds and rates of the learner for fewer than 2^53 epochs), between 2^-200 and 2^200 or 0 (cosine), up to 2^200 (dot_product), and any weights for the other metrics, on graphs with fewer than 2^53 nodes (2^1023 for the learner, no bound for spanning trees and self_similarity_projection); for self_similarity_projection equality of weights is up to the value of rationals; exceptions raised by numbers which are not used are not represented"
  },
  {
   "property": "C99",
   "status": "partial",
   "theorems": [
    "C99_refused_partial",
    "C99_exact",
    "C99_any_call_refuted",
    "C99_right_calls",
    "C99_generators"
   ],
   "note": "refuted for triangular_strength with full=True, write_graphology_json, largest_connected_component_order, the comparisons of graphs and the flags with full=True of a global threshold without keep_connected (AttributeError), and for DataFrames without pandas (MissingPandasException); proved for all other calls, C99_exact gives the exception for every one; values imitating graphs are not modelled"
  },
  {
   "property": "C100",
   "status": "partial",
   "theorems": [
    "C100_components_partial",
    "C100_zero_weights_refuted"
   ],
   "note": "refuted for cosine when the norms of nodes vanish; proved for all other metrics, and for cosine when each node with an edge has a weight whose square is positive; nodes of the part sharing a neighbour must be comparable (C78)"
  },
  {
   "property": "C101",
   "status": "proved",
   "theorems": [
    "C101_total_weight"
   ],
   "note": "for the default metric, in the terms of C44: simple undirected bipartite graphs whose nodes of the part are comparable"
  },
  {
   "property": "C102",
   "status": "proved",
   "theorems": [
    "C102_pipeline"
   ],
   "note": "rows with both columns, parts with distinct names, data of nodes which leave the part attribute alone and names accepted by networkx; metrics: default and dot_product"
  },
  {
   "property": "C103",
   "status": "proved",
   "theorems": [
    "C103_enough_rows"
   ],
   "note": "without keep_connected; edge data must be in the rows and have names networkx accepts, as in C55"
  },
  {
   "property": "C104",
   "status": "partial",
   "theorems": [
    "C104_learned_partial",
    "C104_first_epoch_refuted"
   ],
   "note": "refuted when the learner stops at the first epoch: it returns the starting threshold, which it has not tried; proved after two epochs or more; the second half always"
  },
  {
   "property": "C105",
   "status": "proved",
   "theorems": [
    "C105_alone",
    "C105_told",
    "C105_ends",
    "C105_changing"
   ],
   "note": "the callback is any function with a state of its own; C105_told and C105_ends for callbacks which leave the graph as it is, C105_changing for those which change it and keep it undirected with numeric weights"
  },
  {
   "property": "C106",
   "status": "proved",
   "theorems": [
    "C106_any_int",
    "C106_same_set",
    "C106_roots"
   ],
   "note": "a structure and its calls with any int against the calls of M_UnionFind with elements"
  },
  {
   "property": "C107",
   "status": "proved",
   "theorems": [
    "C107_threshold",
    "C107_learned"
   ],
   "note": "the two graphs have the same nodes in the same order and are_same_graphs with attributes; C107_learned after two epochs or more, as C104"
  },
  {
   "property": "C108",
   "status": "proved",
   "theorems": [
    "C108_len_counts",
    "C108_len_counts_sets"
   ],
   "note": "C108_len_counts for every history without OverflowError (C05), keys beyond the capacity included"
  },
  {
   "property": "C109",
   "status": "proved",
   "theorems": [
    "C109_attributes_read",
    "C109_multigraph"
   ],
   "note": "equality of the results, errors included, for every part, metric, check and threshold; an edge key named like the weight attribute is C88_key_named_weight"
  },
  {
   "property": "C110",
   "status": "partial",
   "theorems": [
    "C110_components",
    "C110_spanning_trees",
    "C110_threshold",
    "C110_learner",
    "C110_triangles",
    "C110_self_similarity",
    "C110_disparity",
    "C110_strength",
    "C110_projection",
    "C110_undirected",
    "C110_any_names",
    "C110_removals",
    "C110_filter_nodes",
    "C110_names_matter_refuted",
    "C110_comparable_names_refuted"
   ],
   "note": "proved for any injective names for the functions which do not compare nodes, and for names which keep the order for the others (C110_undirected: any comparable names for projections of undirected graphs, up to the order of the links; C110_any_names C110_removals C110_filter_nodes: the same for disparities and backbones with positive weights, the pairs having the smaller name first); refuted otherwise: projections of directed graphs change with the names, and edge_disparity raises when names cannot be compared; triangles and strengths on undirected graphs (sets are ordered by hashes)"
  },
  {
   "property": "C111",
   "status": "partial",
   "theorems": [
    "C111_components",
    "C111_triangles",
    "C111_spanning_trees",
    "C111_disparity",
    "C111_learner",
    "C111_sparsifiers",
    "C111_sparsified",
    "C111_removed",
    "C111_removals",
    "C111_weight_read_refuted"
   ],
   "note": "proved, exceptions included, for all these functions, the sparsifiers with keep_connected reading the attribute weight as well; refuted for them when only the given attribute is the same.  For projections see C109"
  },
  {
   "property": "C112",
   "status": "proved",
   "theorems": [
    "C112_repr",
    "C112_same_repr"
   ],
   "note": "for every sequence of operations; the attribute representation is computed again from the capacity from which allocate computed it"
  },
  {
   "property": "C113",
   "status": "proved",
   "theorems": [
    "C113_same_nodes",
    "C113_check",
    "C113_same_projection",
    "C113_members"
   ],
   "note": "for every graph, metric, threshold, attribute and platform arithmetic, exceptions included without the check; a hashable collection such as a tuple is left out (usable), as the code takes it for an attribute value and it selects no node"
  },
  {
   "property": "C114",
   "status": "proved",
   "theorems": [
    "C114_natural",
    "C114_negative"
   ],
   "note": "for every int, operation and sequence of operations; the elements given to the operations are any ints too"
  },
  {
   "property": "C115",
   "status": "partial",
   "theorems": [
    "C115_components",
    "C115_triangles",
    "C115_strength",
    "C115_disparity",
    "C115_threshold",
    "C115_backbone",
    "C115_orders",
    "C115_greatest",
    "C115_same_graphs",
    "C115_remove_nodes",
    "C115_filter_nodes",
    "C115_leaves",
    "C115_remove_edges",
    "C115_projection",
    "C115_largest_refuted",
    "C115_orders_refuted",
    "C115_ends_refuted",
    "C115_rounding_refuted",
    "C50_order_refuted"
   ],
   "note": "proved for components, orders of components of undirected graphs (any symmetric filter) and the greatest two, triangles, triangular strengths, edges above a threshold (keep_connected off), are_same_graphs, remove_nodes, filter_nodes, remove_leaves, remove_edges with tests which do not tell the ends apart (simple graphs), links and weights of monopartite_projection (sums of weights exact), and disparities and multiscale backbones (keep_connected off) in exact arithmetic; refuted for largest_connected_component (the early exit of C13 depends on the order), for orders of components of directed graphs (only outgoing edges are followed, C12), for remove_edges with tests which tell the ends of undirected edges apart, for disparities of binary64 weights (sums round differently), and for self_similarity_projection (C50)"
  }
 ]
}