# Formal model of medialab/pelote in Rocq (Coq 8.16.1)

## What is here

* `properties.jsonl` - the properties, in terms of pelote's API.
* `rocq/theories/` - the model, the specifications and the proofs.
* `MANIFEST.json` - property -> theorem names and status.
* `seeded/LOG.jsonl` - wrong programs tried against the theorems.

Layering of the Coq files (each file in one style, stdlib only):

1. **Model files** (`PyBase.v`, `PyNum.v`, `NxGraph.v`, `M_*.v`): total, computable Gallina functions
   mirroring the Python functions branch by branch. Exceptions are values
   (`res A := Ok a | Err e`). A function which mutates something and may raise returns the
   new state *beside* the outcome (`sm S A`). `while` loops take explicit fuel and return
   `Err OutOfFuel` when it runs out; theorems prove that this does not happen, or
   state non-termination with it. Every definition cites lines of `/repo`.
2. **Spec files** (`S_*.v`): small mathematical specifications that do not use
   the model's helpers (equivalence closure, components, spanning forests,
   triangles, induced subgraph, metrics as sums, distances, tables...).
3. **Proof files** (`L_*.v`): lemmas.
4. **Property files** (`P_*.v`): the theorems named in `MANIFEST.json` with short proofs
   from the lemmas, `Print Assumptions` under each, and beside them `Example`s in which the
   hypotheses are met and the functions are run on concrete inputs.

| source | model | spec | lemmas | properties |
|---|---|---|---|---|
| classes/union_find.py, classes/incremental_id_register.py | M_UnionFind | S_UnionFind, S_Partition | L_UnionFind, L_UnionFind2, L_DisjointSet, L_Partition | P_UnionFind |
| graph.py | M_Graph, M_Umst | S_Graph, S_Umst | L_Graph, L_Graph2, L_Graph3, L_Comp, L_Comp2, L_Comp3, L_Umst, L_Forest | P_Graph, P_Umst |
| classes/traversal.py, shim.py, utils.py | M_Traversal, M_Shim, M_Utils | S_Utils | L_Traversal, L_Utils | P_Utils |
| sparsification/*.py, metrics/edge_disparity.py | M_Sparse, M_Disparity | S_Sparse | L_Sparse, L_Disparity, L_Scale | P_Sparse, P_Flag, P_Compose, P_Compose2, P_Keep |
| metrics/chiba_nishizeki.py | M_Tri | S_Tri | L_Tri, L_Tri2 | P_Tri, P_Count |
| projection.py, classes/online_metrics.py | M_Proj | S_Proj, S_Links | L_Proj, L_Proj2..10, L_Cos, L_Bfs, L_Self, L_Self2 | P_Proj, P_Links |
| learn.py | M_Learn | S_Learn | L_Learn | P_Learn |
| read.py, write.py | M_Json, M_Read | S_Json, S_Read | L_Json, L_Json2, L_Rename, L_Read, L_Read2 | P_Json, P_Read |
| tabular_to_graph.py, graph_to_tabular.py | M_Tabular | S_Tabular | L_Tab, L_Bip, L_Bip2, L_Bip3, L_Edges, L_Frame, L_Frame2, L_Frame3 | P_Tabular |
| Python numbers | PyNum | S_Num, S_Ieee, S_Over | L_Num, L_Sqrt, L_Cos, L_Ieee, L_Over, L_Over2..5 | P_Ieee, P_Over |
| chiba_nishizeki.py, projection.py (exact forms of C42, C43, C97) | M_Tri, M_Proj | S_Tri, S_Proj | L_Tri2, L_Proj4 | P_Exact |
| edges_table_to_graph then global_threshold_sparsification | M_Tabular, M_Sparse | S_Tabular, S_Sparse | L_Tab, L_Sparse | P_Pipe2 |
| floatsam_threshold_learner then global_threshold_sparsification | M_Learn, M_Sparse | S_Learn, S_Sparse | L_Learn, L_Sparse | P_Pipe3 |
| projection.py then learn.py and global_threshold.py | M_Proj, M_Learn, M_Sparse | S_Proj, S_Learn, S_Sparse | L_Proj5, L_Learn | P_Pipe4 |
| projection.py (what is read of the edges) | M_Proj | S_Proj, P_Flat | L_Proj7 | P_Flat |
| names of nodes in all of the above | M_Graph, M_Umst, M_Disparity, M_Sparse, M_Learn, M_Tri, M_Proj | S_Renaming | L_Renaming, L_Renaming2, L_Renaming3, L_Renaming4 | P_Renaming, P_Renaming2, P_Renaming3, P_Renaming4 |
| attributes read by all of the above but projections | M_Graph, M_Umst, M_Disparity, M_Sparse, M_Learn, M_Tri | S_Alike | L_Alike | P_Alike, P_Alike2, P_Alike3 |
| learn.py with callbacks | M_Epoch | S_Learn | L_Learn | P_Epoch |
| classes/union_find.py, `__repr__` | M_Repr | S_UnionFind, S_Json (`decimal`) | L_UnionFind2, L_Json | P_Repr |
| projection.py (parts with the same nodes) | M_Proj | S_Proj | L_Proj2 | P_Members |
| insertion order, in graph.py, projection.py, edge_disparity.py, chiba_nishizeki.py, global_threshold.py | M_Graph, M_Proj, M_Disparity, M_Tri, M_Sparse | S_Shuffled | L_Comp2, L_Graph2 | P_Shuffled, P_Shuffled2, P_Shuffled3, P_Shuffled4, P_Shuffled5, P_Shuffled6 |
| classes/union_find.py, negative capacities | M_Neg | | L_UnionFind2 | P_Neg |
| classes/union_find.py, len of a DisjointSet | M_UnionFind | S_UnionFind | L_DisjointSet | P_DSlen |
| classes/union_find.py with any int | M_UFint | S_UnionFind | L_UnionFind2 | P_UFint |
| tabular_to_graph.py then projection.py | M_Tabular, M_Proj | S_Pipe | L_Pipe | P_Pipe |
| checks of arguments | M_Check | S_Check | | P_Check |
| networkx 2.5.1 | NxGraph, NxDicts | S_Nx | L_Nx, L_Nx2, L_NxDicts, L_NxDicts2..6 | P_Nx |

## Value universe (simplifications)

* Hashable keys (`key`): ints (unbounded `Z`), strs (byte strings; UTF-8 order =
  code point order), and opaque other hashables `KObj` (identity equality, not
  orderable, e.g. frozensets, instances). Bool, float, None and tuple node keys
  are not modelled. `<` on two ints or two strs is the usual order, anything else raises
  TypeError.
* Values (`val`): None, bools, ints, strs, opaque objects, floats. **Floats are
  rationals**; NaN and infinities are not modelled. `math.sqrt`, `math.log` are arguments of the model (oracles).
* Rounding: `edge_disparity`, the backbone, the threshold learner, the maximum spanning trees and the projections compute with `PyNum.v`'s numbers, ints and floats, where each
  float operation ends with the function `m_round` of an argument `lib`. Theorems are about any `sound`
  rounding (monotone, idempotent, 0 and 1 are floats; `S_Num.v`), or about `exact` arithmetic where they state formulas.
  `round64` is binary64's rounding to nearest even without overflow, proved sound; `sqrt64` is its square root. C93 proves that they round correctly to the floats of IEEE 754. They are used in examples,
  refutations and the theorems named `binary64`.
  C98 delimits the missing overflow: within the bounds it states on weights, results are the same with any library which
  agrees with binary64 up to 2^1023 and is any function above (`S_Over.v`). This is about results: an OverflowError raised by a number which is not used
  afterwards is not represented.
  Elsewhere arithmetic on floats is exact.
* dicts are insertion-ordered association lists.
* User callbacks (predicates, filters) are pure functions `... -> res bool`: they may
  raise but have no side effects.

## networkx (trusted, not in /repo)

networkx 2.5.1 (pinned in requirements.txt) is modelled in `NxGraph.v` from its documented
behaviour: the four classes Graph/DiGraph/MultiGraph/MultiDiGraph, insertion-ordered
nodes, insertion-ordered adjacency, `edges` iteration order with the `seen` rule
of undirected graphs, `add_node/add_edge` as update-or-insert, `new_edge_key`,
`remove_edge` on multigraphs popping the last key, degree counting loops twice,
`create_empty_copy`, `subgraph`, `to_undirected` and connected
components. `f(**attr)` calls raise TypeError for non-string attribute
names and for names clashing with the callee's own parameters. Node
attribute dicts and edge attribute dicts are values: aliasing between
graphs is not modelled (all pelote copies go through `**attr`, which copies).

* `NxDicts.v` transcribes the same methods with the dictionaries networkx is made of (`_node`, `_adj`,
  `_succ`, `_pred`, edge attribute dicts shared by reference). C84 proves that after any
  sequence of calls `NxGraph.v` reads the same, so what is trusted about these methods is the transcription. Views, connected
  components and attribute names clashing with parameters are only in `NxGraph.v`.
* Graphs are any values of the `graph` record satisfying `WF` (distinct nodes, edges between nodes,
  distinct keys...), the invariant of graphs built with networkx (C86: exactly these). `WF` is a hypothesis of the
  theorems about graphs, and is proved for the results.
* A subgraph view is represented by the graph it shows, in insertion order (networkx uses
  the order of a set when the subgraph is small).
* The undirected view of a directed graph used by `triangles` is modelled with an arbitrary order
  of sets and with networkx 2.5.1's way of counting degrees; `C40_any_view` shows that neither matters.

Likewise trusted: `sorted` (stable), `heapq.nlargest`, `array` overflow checks, `ebbe.omit`, `llist.dllist`,
pandas' `DataFrame` constructor. A DataFrame is its number of rows, its columns with
their cells, and its index; the type of a column is inferred by the simplified account of pandas 1 in
`convert_column` (a number column turns None into NaN and rounds ints to binary64 floats when needed, unless one of
them is neither an int64 nor a uint64; mixing ints of at least 2^63 with negative ones, or with None before
them, is not modelled); NaN is
an argument of the model. DataFrames have distinct column names.

## Simplifications of pelote's own code

* In the models of functions, arguments have the documented types. `is_graph`, `check_graph` and the `callable` tests are
  modelled apart, in M_Check, where the arguments given as graph or as function are any values, and where each function is
  its checks followed by its model; C99 shows which exception wrong arguments raise, and that the checks change nothing to right
  calls. A value which is not a graph has none of a graph's attributes. `has_constant_time_lookup` is not modelled.
* Generators are lists of what they yield when consumed to the end, without
  mutation of the graph meanwhile (flagging edges while iterating is modelled).
* In `monopartite_projection`, the dictionary of attributes of one of several parallel edges is an opaque object
  (`attributes_object`), not a number and, in the theorems, not equal to the value of the part. A collection given as
  part carries a flag telling whether it is hashable.
* Weights are numbers; ints and floats are compared by value, and subtracted as Python does.
* `on_epoch` callbacks are the list of epochs they receive in M_Learn; M_Epoch calls them, and lets them raise and change the graph.
* In M_Json a JSON document is a record in which each field may be absent; present fields have the type of the format; the
  constant option `allowSelfLoops` is left out. M_Read reads any value made of dicts, lists and scalars, and C94 proves
  that it reads what M_Json reads. Lists and dicts found as attribute values are opaque objects there, and one given
  as graph attribute `incoming_graph_data` is reported as NetworkXError. `open` and `json.load` are functions given as
  arguments; `json.load` after `json.dump` is modelled on values (`dump_load`), not on texts.
* In tables, None, bools and floats used as node keys are reported as TypeError.
* `counting_sort`'s key function is pure and memory is unbounded.

## Not modelled

Memory, performance (except C09), thread interleavings, the text of JSON files, docs, experiments, error message texts, lazy consumption of
generators interleaved with graph mutation by the caller.

## Test of the model against the repository's unit tests

P_Tests replays the unit tests of /repo/test on the model, computed in Coq. These are tests, not proofs. Every replayed
assertion holds on the model, the exact floats of edge_disparity_test.py included. Left out: arguments of a wrong type
(not modelled) and les_miserables.json. One test writes a value which the code does not give: projection_test.py:180-188
expects the weight 1 where self_similarity_projection computes 1/2. It passes because it calls are_same_graphs without
check_attributes; the example states both facts.

## Trusted base

Coq 8.16.1's kernel (incl. `vm_compute`), the reading of the code recorded in the
comments, and what `Print Assumptions` prints under each theorem: "Closed
under the global context" for every one of them. No axiom is used, neither ours nor of the
standard library. (`vcheck` lists the axioms `Coq.ssr.ssrunder.Under_rel.*`, which belong to the standard library files
loaded along with `Lia`; no theorem depends on them.)

## Approach per property

| ids | model | proof |
|---|---|---|
| C01-C04, C06 | `union_find.py` on nat arrays with the array width limit | forest invariant by induction over the op list; find fuel shown sufficient; refinement to `clos_refl_sym_trans` |
| C05, C28 | array overflow as `OverflowError` | refuted at capacity 256 by an executed history; exact condition proved by counting |
| C07, C08 | register + DisjointSet | refinement to C01's relation through the id map |
| C09 | depth = number of parent steps | refuted: for every n a history of n unions with a find path of length n |
| C10-C12, C16 | DFSStack loop with fuel | invariant: seen set closed; sizes = class sizes; C12 refuted by witness |
| C13-C15 | nx.connected_components + early-exit loop | component-ness proved; maximality refuted by witness, and proved under an order condition |
| C17-C24, C76, C92 | graph.py helpers on the nx model | extensional characterisation through lookup lemmas and edge-list lemmas; refutations by witness |
| C25-C28 | Kruskal-like loop with buckets over DisjointSet | loop invariant; exchange argument against an independent definition of maximum spanning forest |
| C29-C36, C77 | Sparsifier closures as functions | list filtering lemmas, C25-C27 for keep_connected |
| C37-C39 | edge_disparity with a rounding function | algebra in Q for exact arithmetic; monotonicity of the rounding otherwise; C39 refuted at binary64 except for powers of two, which commute with rounding (L_Scale) |
| C40-C42 | Chiba-Nishizeki loops on lists | invariant on residual adjacency; counting |
| C43-C47, C78 | projection loops with metric state | invariants on norms and counters; Cauchy-Schwarz in Q; relative errors of binary64 roundings |
| C93 | `round64`, `sqrt64` of PyNum.v | nearest multiple of the unit of the number's binade; middles of floats are on the grid of the integer square root |
| C88 | projection of multigraphs | a simple graph read as the multigraph is; C44 on it |
| C89, C90 | projection of directed graphs | the loops of C44 with successors of successors; outcome of every pair (L_Proj9) |
| C48-C50 | BFSQueue loop, inverted index | distance-layer invariant; set identities |
| C51-C60, C82, C83 | tabular loops | induction over rows with lookup lemmas; renaming of graphs |
| C84-C86 | networkx itself | simulation: dictionaries with references against bundles |
| C91 | predicates which raise | first failure in the list of edges; prefix of the flagging loop |
| C87 | edge filters which raise | simulation with the filter made total; every node seen is visited |
| C61-C66, C81 | JSON as a record type | edge-list rebuild lemma; injectivity of decimal printing |
| C94, C95 | read.py on any JSON value | a relation between values and documents; induction on nested values |
| C96 | filters and sparsifiers in sequence | graphs rebuilt from filtered lists of edges are equal; an edge of a maximum spanning forest stays one in a subgraph |
| C97 | sum of strengths | each triangle increments three counters; the naive method agrees on positive entries |
| C98 | floats above 2^1023 | every intermediate number is bounded by a float, so that rounding keeps the bound |
| C99 | wrong arguments | by cases on the calls |
| C100, C101 | components and weights of projections | paths alternate between parts; common neighbours counted twice |
| C102 | tables projected | C51-C53 give the hypotheses of C44 |
| C103, C104 | tables and learned thresholds sparsified | C56 and C72 give the weights and components which C29 keeps |
| C105 | callbacks which raise or change the graph | the loop in a state monad against the loop of M_Learn |
| C106 | UnionFind called with negative indices | the calls with any int against the calls with elements |
| C107 | weight_threshold against global_threshold_sparsification, thresholds learned on projections | C46, C29 and C104 on the links of the projection |
| C108 | len of a DisjointSet | calls on keys are calls on ids; classes of ids against classes of keys |
| C109 | projections of multigraphs and of graphs with further attributes | a run reads node data, neighbours, weights (and the attribute of the part in the check by value) only |
| C110 | runs on a graph and on the same graph with other node names | every operation commutes with the renaming: equality of keys for injective names, `<` too for names which keep the order |
| C67-C71 | utils | induction / counting |
| C72-C73, C79, C80 | learner loop with fuel | unfolding invariant; non-termination: for every fuel no result |
| C74-C75 | state machines | induction over operation lists |

## What was found false

The witnesses are the theorems whose names end in `_refuted`; the notes in `MANIFEST.json` say what is wrong and what
holds instead. In short:

* C115 the size of `largest_connected_component` depends on the order of insertion, and so do the orders of
  components of directed graphs, even the greatest.
* C114 `UnionFind` accepts negative capacities: `len` and every operation on elements then raise, while `clear` and `repr` still succeed.
* C05, C28 `UnionFind` overflows its array at capacities 256, 65536, ...; C09 ranks of arguments are compared, not those of roots.
* C12 directed components follow outgoing edges only (hence C72); C13 the early exit of `largest_connected_component`
  is wrong; C15 the copy keeps every node.
* C18, C76, C92 comparisons of multigraphs, and of graphs of different kinds; C21 `remove_edges` and C31 `Sparsifier.remove` on multigraphs; C23, C24 self-loops lost.
* C25 ints above 2^53 mixed with float weights; C26 weights less than 1e-8 apart; C33 `keep_connected` ignores `edge_weight_attr`; C77 `keep_connected` with generators.
* C39 rescaling float weights changes scores by rounding errors; C42, C97 the naive method differs; C43 tuples as parts; C44, C100 cosine with zero or very small weights; C104 the starting threshold returned without being tried; C45 cosines slightly above 1; C90 similarities above 1 and missing norms on directed graphs; C47, C78 the bipartition check, and comparing nodes of the part (0 with "a") which share a neighbour
  reads the attributes of edges; C50 the loop variable `depth` shadows the argument.
* C59, C60 name clashes and empty frames; C59 ints rounded beside floats; C61-C63 attributes named like networkx parameters; C64 keys which print alike.
* C68 `counting_sort` is not stable and fails on the empty list; C73 the learner may not terminate, either because no component is large enough or because adding the rate is lost to rounding; C79 negative rates.
* C75 nested `missing_pandas` blocks.
* C96 `multiscale_backbone` is not idempotent, nor is `keep_connected` with weights less than 1e-8 apart.
* C98 the sum of weights near 2^1023 overflows in `edge_disparity`.
* C99 `triangular_strength(full=True)`, `write_graphology_json`, `largest_connected_component_order`, the comparisons of graphs, and
  the flags with `full=True` of a `GlobalThresholdSparsifier` do not check their graph: AttributeError.
