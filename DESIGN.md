# Formal model of lattice-graph: design

The code in /repo is modelled function by function in Rocq (Coq 8.16.1, standard
library only).  Nothing of the code is executed; the tie to the code is the file/line
citation on each model definition.

## Layers (rocq/theories)

| file | content |
|---|---|
| `Machine.v` | outcome monad (`Ok` / `Fail FPanic` / `Fail FUB` / `Fail FDiverge`), build mode (`Debug`/`Release`), 64-bit `usize`/`isize` arithmetic with the overflow behaviour of each mode, loops with binary fuel, iterators (`Drains`, `Consumed`) |
| `Store.v` | ndarray `Array2` (row major cells), fixedbitset `FixedBitSet` |
| `Axes.v` | `Axis`/`AxisDirection` traits as a record of operations, the 8 axis types |
| `Shapes.v` | `Shape` trait as a record, default methods, square, diagonal, hex offset, hex axial (incl. hex2d), double coordinate shapes |
| `Lattice.v` | `LatticeGraph`: construction, accessors, iterators, adjacency, visit map, clone, comparison, drop |
| `SquareGraph.v` | the deprecated `square::SquareGraph` |
| `Spec.v`, `Spec2.v`, `Spec3.v`, `Spec4.v`, `Spec5.v`, `SpecSquare.v` | the specification: boards, cell positions in the plane, direction vectors, the geometric step, lists of the shapes with their specification, `Built` (a graph made by construction, by `new_with` or in steps, and writes, with its logical weights), set and map semantics of histories, closed formulas |
| `Basics.v`, `AxisProofs.v`, `GeoProofs.v`, `ShapeProofs.v`, `StoreProofs.v`, `GraphProofs.v`, `RepProofs.v`, `IterProofs.v`, `EdgeProofs.v`, `VisitProofs.v`, `Main1.v`, `Main2.v` | generic proofs for `LatticeGraph` from the records `Refines` (shape matches its geometry) and `AxisOK`, and the instances for every shape |
| `IsoProofs.v`, `LoopProofs.v`, `QuirkProofs.v`, `OffboardProofs.v`, `UnsafeProofs.v`, `ConnProofs.v`, `CountProofs.v`, `DropProofs.v`, `FillProofs.v`, `Hex2dProofs.v`, `DistProofs.v` | proofs about particular shapes and functions |
| `Traverse.v` | petgraph 0.8's `Bfs` and `Dfs`, as clients of the graphs |
| `TraverseProofs.v`, `SearchProofs.v` | the traversals over any graph with finite neighbour lists and a faithful visit map, and over `LatticeGraph` |
| `Astar.v` | petgraph 0.8's `astar`, as a client of the graphs |
| `AstarProofs.v`, `AstarMain.v`, `AstarDemo.v` | the search over any finite graph, over both kinds of graph, and its example runs |
| `SquareProofs.v`, `SquareIter.v`, `SquareMain.v`, `SquareCompare.v`, `SquareSearch.v`, `SquareQuirks.v` | proofs about `SquareGraph` |
| `HandshakeProofs.v`, `LendProofs.v` | C75-C77 |
| `AxisQuirks.v` | C78, C79 |
| `Dijkstra.v` | petgraph 0.8's `dijkstra`, as a client of the graphs |
| `Spec6.v` | the least cost of a route |
| `Kruskal.v` | petgraph 0.8's `connected_components` and `min_spanning_tree`, as clients of the graphs |
| `Spec7.v` | components and lightest spanning forests |
| `KruskalProofs.v`, `KruskalRun.v`, `KruskalMain.v`, `KruskalDemo.v` | counting classes and exchanging edges; the algorithms over any graph; both kinds of graph; a union-find for the examples |
| `DijkstraProofs.v`, `DijkstraMain.v` | the search over any finite graph, and over both kinds of graph |
| `Order.v`, `Spec12.v`, `OrderProofs.v` | the derived orders of coordinates, axes and ids; C86, C87, C102 |
| `Clients.v` | petgraph 0.8's `is_bipartite_undirected`, `is_cyclic_undirected`, `has_path_connecting` and `DfsPostOrder`, as clients of the graphs |
| `Spec8.v` | colourings and cycles; which boards have them |
| `ClientsProofs.v`, `ColourProofs.v`, `ClientsMain.v` | these algorithms over any graph; colourings of the boards; both kinds of graph |
| `More.v` | `Hash` of `LatticeGraph`, zero-sized weights, default shapes and `new_s`, `SquareGraph::new_with` with closures that panic, `NodeReferences::count` |
| `Spec9.v`, `MoreProofs.v`, `MoreDemo.v` | the weights made before a panic; C94-C96 and additions to C35 and C43 |
| `Spec10.v`, `OffboardMore.v` | where moves from outside of offset, doubled and looped boards lead; C56 continued |
| `Format.v`, `FormatProofs.v` | what `{:?}` reads of a `LatticeGraph`; C97 |
| `Spec11.v`, `AnySearch.v`, `AnySearchMain.v` | searches on every shape, also where steps are one-way or leave the board; C98 |
| `Follow.v`, `DijkstraFault.v`, `ConnFault.v`, `TreeFault.v` | where following edges leaves the board, and what clients make of it; C99, C82 and C84 continued |
| `Spec13.v`, `DoubleProofs.v`, `PartsProofs.v` | which boards are one piece, which fall apart, which close a cycle, on all shapes; C82, C84, C90 continued |
| `EqProofs.v` | comparing graphs, slot by slot; C35 continued |
| `PostAny.v` | post-orders on every shape; C98 continued |
| `Scc.v`, `SccProofs.v`, `SccMain.v` | petgraph's `kosaraju_scc` on both graph types; C100 |
| `Convert.v`, `ConvertProofs.v` | conversions and comparisons between pairs and node ids; C101 |
| `Floyd.v`, `Spec14.v`, `FloydProofs.v`, `FloydMain.v` | petgraph's `floyd_warshall` on both graph types; C103, C104 |
| `Spec15.v`, `UncheckedProofs.v` | the unchecked functions outside of their contract; C105 |
| `DfsEvents.v`, `Spec16.v`, `DfsProofs.v`, `DfsCycle.v`, `DfsMain.v` | petgraph's `depth_first_search` with its events and `is_cyclic_directed` on both graph types; C106, C107 |
| `Topo.v`, `TopoProofs.v`, `TopoMain.v` | petgraph's `toposort` on both graph types; C108, C109 |
| `BaseProofs.v` | the public steps of the doubled bases and flat-top bases of a user; C110, C111 |
| `Tarjan.v`, `TarjanProofs.v`, `TarjanMain.v` | `tarjan_scc` as published, and that it finds the strongly connected components of any graph; C112, C113 |
| `Spec19.v`, `CustomProofs.v`, `CustomMain.v` | what a user's own shape has to keep to, and that it is enough; C114, C115 |
| `CustomDemo.v` | three such shapes: a board looped in both directions, undirected and directed, and a knight's moves with an axis type of its own |
| `Spec20.v`, `OneWayProofs.v`, `OneWayMain.v` | shapes whose moves are not undone by the opposite move; C116 |
| `Filtered.v` | petgraph's `NodeFiltered` and `EdgeFiltered` (src/visit/filter.rs of petgraph 0.8), transcribed |
| `Spec21.v`, `FilteredProofs.v`, `FilteredMain.v` | ways through a part of a graph; searches over filtered views, C117-C121 |
| `Adaptors.v` | petgraph's `Reversed` and `UndirectedAdaptor` (src/visit/reversed.rs, undirected_adaptor.rs of petgraph 0.8), transcribed |
| `Spec22.v`, `AdaptorsMain.v` | ways along edges in either direction; searches over the two adaptors, C122, C123 |
| `Bellman.v` | petgraph's `bellman_ford` (src/algo/bellman_ford.rs of petgraph 0.8), transcribed; weights are integers and infinity |
| `Spec23.v`, `BellmanProofs.v`, `BellmanMain.v` | negative cycles and traced ways; `bellman_ford` over any finite graph, then over the two graphs, C124, C125 |
| `KShortest.v` | petgraph's `k_shortest_path` (src/algo/k_shortest_path.rs of petgraph 0.8), transcribed; the counters do not overflow |
| `Spec24.v`, `KShortestProofs.v`, `KShortestMain.v` | walks told by the edges they take, the k-th cheapest; `k_shortest_path` over any finite graph, then over the two graphs, C126, C127 |
| `Cliques.v` | petgraph's `maximal_cliques` (src/algo/maximal_cliques.rs of petgraph 0.8), transcribed; hash sets are lists iterated in any order |
| `Spec25.v`, `CliquesProofs.v`, `CliquesMain.v` | cliques and maximal cliques; `maximal_cliques` over any finite graph whose neighbours are mutual, then over `LatticeGraph`, C128 |
| `SimplePaths.v` | petgraph's `all_simple_paths` (src/algo/simple_paths.rs of petgraph 0.8), transcribed |
| `Spec26.v`, `SimplePathsProofs.v`, `SimplePathsMain.v` | paths without repeated nodes and how often each can be gone; `all_simple_paths` over any finite graph, then over the two graphs, C129, C130 |
| `Spec27.v`, `OnceMain.v` | which boards are looped; how often a node is listed among the neighbours of another, C131, C132 |
| `Matching.v`, `Spec28.v`, `MatchingProofs.v`, `MatchingMain.v` | `greedy_matching` as a client, pairs of nodes, C133, C134 |
| `Dot.v`, `Spec29.v`, `DotMain.v` | `Dot` as a client, C135, C136 |
| `PruneDfs.v`, `Spec30.v`, `PruneProofs.v`, `PruneMain.v` | `depth_first_search` with a visitor that prunes, C137, C138 |
| `Coloring.v`, `Spec31.v`, `ColoringProofs.v`, `ColoringMain.v`, `ColoringDemo.v` | `dsatur_coloring`, C139, C140 |
| `StrayProofs.v` | estimates that fall by one along a line keep A* on it; C74 on looped boards |
| `RepoTests.v` | the unit tests of the repository, run on the model: tests of the model, not proofs |
| `Demo.v`, `SquareDemo.v` | the concrete graphs used by the non-vacuity examples |
| `Properties1.v` .. | only theorem statements closed by `exact`, non-vacuity examples and `Print Assumptions` |

## Modelling decisions

* Numbers: `Z`.  `usize` is 64 bits.  Every operation that can overflow is a function of
  the build mode: `Debug` = overflow checks and debug assertions on (panic), `Release` =
  wrapping, debug assertions off.
* A panic is `Fail FPanic`; undefined behaviour (unreachable_unchecked reached, unchecked
  access out of bounds, use of an uninitialised slot) is `Fail FUB`; a loop that does not
  end within 2^72 iterations is `Fail FDiverge`.  Theorems say `= Ok ...`, so they include
  absence of panic, undefined behaviour and divergence.
* Weight slots are `option`: `None` is memory that was never written.  Producing a
  reference to such a slot that is then read, cloned, compared or dropped counts as a
  fault.  `assume_init` itself moves the arrays without looking at the slots (the library's
  contract makes the caller responsible), so it is the identity on the slots.
* Functions through `&mut` return the new value.  `node_weight_mut` is modelled as
  "apply any function to the addressed weight".
* `FnMut` closures are state passing functions over an arbitrary state type.
* An iterator is its state plus a `next` function; `Drains next it l it'` says that calling
  `next` repeatedly gives exactly the items `l` and then `None` in state `it'`;
  `Consumed next it n it'` that `n` calls lead from `it` to `it'`.
* Position specification: each coordinate has a position in the plane (square: itself; hex:
  doubled coordinates), each direction a vector; the neighbour of a cell in a direction is
  the board cell found at position + vector (modulo the period on looped boards).
* `&S` as a shape forwards to `S` (`shape_ref`); const shapes are the shapes whose sizes
  are the constants.
* `SquareGraph`'s index type `Ix` is a modulus (`u8`, `u16`, `u32`, `usize`); the loop
  marker is one of the four marker types of the crate.
* hex2d's `Direction` constants and `Coordinate` addition, and `Vec::clone`'s memcpy of
  `Copy` elements, are contracts of code outside the repository.

## Which shapes

| inductive | members |
|---|---|
| `Supported s G` | the shapes whose moves match a geometry: square, diagonal, hex offset OddR/EvenR (plain, directed, E-W loop), hex axial all four bases (plain, directed), hex axial E-W loop up to two rows (Odd) or one row (Even); every size `usize` arithmetic and ndarray allow |
| `Stored s G` | every shape of the crate; for those outside `Supported` the geometry's nodes are still described independently, and its step is what `move_coord` answers |
| `Traversable` / `Untraversable` | the shapes on which `edges()` never faults, and those on which it does: offset OddQ/EvenQ whose top row is lifted, with two columns or more; offset OddQ/EvenQ with LoopEW; double coordinates with two cells or more. The taller E-W looped axial boards are `Traversable`, but an edge leads off the board (`Leaky`, Spec11.v) |

Each theorem uses the largest class for which it is true; a property that fails outside of
it has a `_refuted` theorem (C29, C31, C32, C33).

## Per property

For the properties quantified over "supported shapes": one generic proof from a record
`Refines m shape spec`, which is proved for each concrete shape for all sizes; theorems are
stated over the inductive lists above.  Properties that the code violates are kept at full
strength, refuted by a witness or for a whole class of boards (`..._refuted`), and the part
that does hold is proved (`..._partial`).

| property | how |
|---|---|
| C01 C02 C03 C04 | fold over node indices in `new_with`; invariant relating the arrays to the closures' results |
| C05 C06 C07 C08 | row-major index arithmetic; iterator induction. C08: `NodeReferences::len` refuted |
| C09 C10 C11 C26 | geometric step = `move_coord`, symmetric because vectors negate |
| C12 C13 C16 C17 | edge slot chosen by `get_raw_id` = the edge joining the two cells |
| C14 | refuted for backward directions; proved for forward ones and edge_references |
| C15 | flat_map over the board; NoDup of ids |
| C18 | refuted in debug (assertion fails); release mode proved for endpoints/weights |
| C19 C20 C51 | refinement of write histories to maps |
| C21 | proved for square/offset shapes, axial refuted at extremes in debug, exact condition proved |
| C22 | refuted: panics in debug, undefined behaviour in release, for every shape |
| C23 C24 C50 | refinement of operation histories to a set; C24 refuted |
| C25 C37 | finite case analysis, all indices; C37 refuted for AxisDR |
| C27 C55 | equality of the move functions through the common geometry |
| C28 C29 C30 C31 C32 C33 C57 | per-shape arithmetic; C29-C33 and C57 have refutations |
| C34 C35 | drop, clone and comparison modelled over slots; exact event sequences; refuted |
| C36 C38 C39 | generic / arithmetic; C38 refuted for boards that do not fit |
| C40-C49 | model of SquareGraph with index type modulus; C43, C47, C48 have refutations |
| C52 | equality of both models' observations |
| C53 | induction on coordinates |
| C54 | counting by sums |
| C63 | each shape's distance changes by at most one per step and some step lowers it; induction on walks and on the distance |
| C64 C65 C66 | generic invariants of the two traversals (queue sorted by depth; stack of neighbours of visited nodes) over the code's `neighbors` and visit map; connectedness |
| C67 | as C63, with the ring distance on each axis |
| C68 | both kinds of graph determine the same arrays, by induction on the writes |
| C69 | the two loops of `new_with` with closures that may panic, against the list of calls |
| C56 | refuted on every non-empty board of every shape (case analysis over shapes, one coordinate next to the board each); exact answers for every shape, with loop too (the wrapping loops of axial boards compute a remainder) |
| C58-C62 | refuted by witnesses and, case by case, on every board (`SquareQuirks.v`); the safe part of C58 and the exact relation of C59 proved |
| C70 | case analysis over directions, index arithmetic |
| C71 | `check_gen` unfolded for arrays of any sizes; the accepted graph satisfies `SqBuilt` |
| C72 C73 | generic invariant of A* (scores, parents without cycle, every scored node is queued or expanded); the search ends because scores sink; some queued node lies on every route to a goal; instances by the exact `edges` lists and the distances of C63 and C67 |
| C74 | `NodeIndex::distance` is the distance of C67 on boards without loops; on looped boards all scores along the row stay below those of every other queued node, so the search never looks back (`StrayProofs.v`); the path is dearer by at most what the estimates exceed the ring distance (`c74_bound`) |
| C75 C76 | moves from all nodes, named by node and direction, are a permutation of the two ends of all edges: both lists are free of duplicates and have the same members because moves can be undone |
| C77 | every operation on a graph over `shape_ref s` against the same over `s`, by unfolding and induction over the loops |
| C78 | the axis functions on every index, by cases on the axis types and on the index up to the number of axes; refuted for two types with debug assertions |
| C79 | `dir_is_forward` of every axis type and `gdirection_ops` over any of them, from the index facts of C25; refuted for undirected axes |
| C80 C81 | generic invariant of Dijkstra's search (done nodes have settled scores no queued score is below, every other scored node is queued with its score); rounds shrink (nodes not done, queue) lexicographically; the visit map by refinement of C23/C50; instances as for C72/C73 |
| C82 C83 | the fold of unions keeps the union-find's relation equal to the links of the edges read so far (indices to cells by the bijection of C05/C42); labels are counted as classes of cells; boards with a lattice are linked by the routes of C72/C73 and the two ends of C75/C76; the remaining shapes line by line from their moves; of doubled boards the cells beyond the last doubled column have no edge |
| C84 C85 | node phase: the map of indices becomes the identity (C05/C43 order); edge phase: edges chosen in rising order; for every weight t the chosen edges above t are as many as any spanning choice needs (count of classes of the edges up to t), and summing over t bounds the total; with an edge off the board the heap holds it until it is popped, and its index panics |
| C86 | indices are `x * h + y` by C05; on each of the three layouts of boards the derived lexicographic order of the cells is compared with that; two cells in the wrong order on the larger axial and doubled boards |
| C87 | the same for `SquareGraph`; the edges of C46 are flattened from ascending lists |
| C88 C89 | generic invariant of the colouring search (the two maps are disjoint, hold exactly the nodes met, separate every expanded node from its neighbours, and every proper colouring must agree with them); boards: parity colourings, and triangles or odd rings where there is none |
| C90 C91 | the fold of unions as in C82; the first union that joins nothing is an edge between linked nodes; on linked boards a forest has one edge fewer than nodes, and the edges are counted by C54/C46; on other shapes every cell starts an edge, or three edges make a triangle, or the edges climb level by level |
| C92 C93 | the depth first search of C65/C66 finds all nodes; generic invariant of the post-order (every stacked node but the start lies above one that it is a neighbour of and that is discovered but not finished) |
| C94 | the memory of a built graph (C34) has an unwritten slot on every board with a cell; with zero-sized edges the list fed to the hasher is computed |
| C95 | C01/C02 with constant closures; the default square board has no cells, so C04's list of calls is empty |
| C96 | the nested loops are a run over the list of calls that stops at the first panic; what was pushed is what was made |
| C97 | every board with a cell has an unwritten slot in a corner of an edge array, and ndarray's formatting always shows the corners |
| C98 | induction over the layers of nodes reached, with a visit map that ignores what is off the board (`AnySearch.v`); instantiated by C09/C24 for every stored shape |
| C99 | case analysis over the shapes: no step leaves the board, or one that does is given, or a read of an edge never stored; for Dijkstra an invariant (every scored node is queued or expanded) and the measure (nodes not expanded, queue length); `ConnFault.v` follows the fold of unions to the first bad edge |
| C98 (post-order) | invariant of `DfsPostOrder`: the open nodes form a chain of neighbours, each with its unvisited neighbours above it on the stack; measure 9 * undiscovered + stack (`PostAny.v`) |
| C100 | both phases by invariants (finished sets are closed under neighbours); a node finished later than its list's first node and tied to it would have been visited before, so an asymmetric pair always lands in one list (`SccProofs.v`) |
| C101 | unfolding; truncation to the index type is a remainder, so adding the size of the index type to a coordinate gives an off-board pair with the same index |
| C102 | cases over the variants; `edge_references` goes by node index, then by axis, so the order of nodes carries over; on larger axial boards two edges out of order are named |
| C103 | after round k the table holds the least prices of ways whose inner nodes have an index below k, clipped to the largest price; induction over the rounds on any list of edges, then the graph's own iterators are put in; on every shape of `Parts` (Spec13.v) |
| C104 | the same; boards without rows are computed exactly and refute the claim |
| C105 | case analysis over the shapes; the arrays of a built graph have exactly the slots of the board, those of edges over the rim unwritten; witnesses on a hex board refute the rest |
| C106 | the events are those of an abstract run over a stack of nodes with their remaining neighbours, which ends by a measure and keeps an invariant (open and finished nodes share out the discovered ones, each edge is seen once, ...); the search with any visitor follows the run; a back edge exists exactly if there is a cycle, since otherwise every node finishes after its neighbours |
| C107 | the same |
| C108 | its first phase follows `DfsPostOrder` round by round until it meets a node that is its own neighbour; in its second phase each search finds one node only if every neighbour comes earlier in the order, but a neighbour that finished later leads back to the node, which then would come earlier too |
| C109 | the same |
| C110 | by cases on the direction, against a table of vectors in `Spec17.v` |
| C111 | the conversions against a formula for column and row in `Spec17.v`; a board closed East-West as witness for the rest |
| C112 | an invariant of the recursive visit over the list of the nodes that are in progress, with the place each leads back to; the shapes with steps off the board are named in `Spec18.v` |
| C113 | from the same theorem for any graph |
| C114 | the contract (`Spec19.v`) is stated about the trait methods alone; it gives a geometry, with vectors made from the numbers of the directions, that the shape implements in the sense in which the crate's shapes implement theirs, and the proofs about those never used more. Coordinate types that are not pairs of numbers are left out |
| C115 | from the theorems about searches and `dijkstra` on any graph |
| C116 | false: `C116_refuted`, `C116_directed_refuted` (undefined behaviour on boards of every size), `C116_shared_refuted` (the weight of another edge). What does not depend on the way back, and the exact condition under which `edges` and `edges_directed` are safe, with the references given before the fault, are proved for every shape that keeps to the rest of the contract (`Spec20.v`) |
| C117 | the view of the neighbours drains to the filtered list, by induction over what the graph's own iterator gives; ways in the view are ways through kept nodes; then the search theorems over a view of the board |
| C118, C120 | the edges of the view are a sub-list of the graph's; the Dijkstra and A* theorems are about any such list; routes of the view are `Inside` routes |
| C119, C121 | as C118 with `Along` routes; that ways lead back by the weight shared by the two ends of an edge (C13, C45). `C119_id_refuted`: by id they do not lead back on a LatticeGraph, because an edge seen from its far end has another id |
| C122 | what `edges_directed(_, Incoming)` drains to is `spec_incoming`; a route of the view, read backwards, is a route of the graph; then the Dijkstra and A* theorems for any list of edges. `C122_debug_refuted`: in debug builds of directed graphs the first node with a neighbour panics |
| C123 | the chain of the two iterators drains to the two lists one after the other; routes of the view are `Either` routes. `C123_debug_refuted` as above |
| C124 | invariant: every finite entry is the cost of a way, after k turns at most that of every way of k edges, and the predecessor's entry plus the edge is no more; if no edge improves, the entries are least and no cycle is negative; if one still does after n - 1 turns, the way of n edges repeats a node, and the piece in between is negative; without negative cycles following predecessors ends at the start |
| C125 | the same with the edges of `SquareGraph`; an edge is taken there and back for twice its cost |
| C126 | invariant: the entries of the heap are walks, none twice; walks leave it in the order of their costs; a walk that left it was followed, or k cheaper ones to the same node were; so a walk that is cheaper than all in the heap left it, or k others to its end did (induction on what is left of it). Ends because each node is followed at most k times |
| C127 | the same with the edges of `SquareGraph` |
| C128 | a call with chosen nodes r, candidates p and excluded nodes x lists the cliques between r and r + p that no node of p or x extends: induction on the depth, inside of it on the candidates left; one that holds none of the nodes that are tried could be extended by the pivot. The sizes: cells at distance at most one (C63) have different colours out of two, three or four |
| C129 | the stack of iterators against a recursive list of what is found below the nodes visited (induction on the nodes left, inside of it on the neighbours left); how often a path occurs in that list is a product of how often each node is listed among the neighbours of the one before |
| C130 | the same with the neighbours of `SquareGraph` |
| C131 | two directions that lead from a node to the same node differ by a multiple of the period of the board; the vectors of the directions are too short for that from three columns on |
| C132 | the four neighbours computed, case by case |
| C133 | induction over the walk that does not turn back: the mates so far are symmetric, a visited node without a mate is the last of its walk and all its neighbours were visited, hence have mates; each node of another pairing has a mate here or its partner there has |
| C134 | the same lemma for `SquareGraph`; the panic by computing the first visit |
| C135 | the two loops computed from C07 and C15, the lines compared with `edges` by C75 |
| C136 | the same from C43, C46 and C76; without rows nothing is written |
| C137 | the search follows a run that is defined by the neighbours and by what the visitor prunes; invariants of that run give the events, and those the nodes reached by a rule |
| C138 | the same over the neighbours of C44 |
| C139 | an invariant of the rounds: which colours are next to which node, which entries the heap has; for two colours also that the board is connected, so each node taken out after the first is next to a coloured one |
| C140 | the same over the neighbours of C42, the edges of C45 and the visit map of C44; on boards without rows the first node of `node_identifiers` (C43) is off the board, where `edges` goes out of bounds (C61) |

## Testing the theorems against wrong programs

`seeded/LOG.jsonl` has one line per attempt, in a scratch copy. There are two kinds.

* Edits made by hand (372): a realistic bug put into a model definition, the claim it breaks, and the
  property theorems that could no longer be proved. A few break no claim or gave no result; their lines say so.
* Edits made by a script, one token at a time (ids `A`, `B`, `C`, `D` and four digits; 1070, of which 73
  survived). Their lines state no claim, and name the first proof that failed and not the theorems. Edits that
  did not typecheck are left out. The last run (`D`) was stopped before its end. Most survivors fail in a later
  run; of those that do not, some are dead code, and for 13 lines it was not settled whether the edit is
  equivalent (most exchange a panic with undefined behaviour in a branch that no theorem reaches).

A theorem counts as failed when its proof, or a lemma it depends on, no longer goes through. That is weaker than
that the theorem has become false: M12, MC08, MC10, CL01 and CL12 leave the claims true, and theorems fail all
the same. So a failure shows that a proof looks at the edited place, not by itself that the statement excludes
the edit; only the survivors are conclusive.

## Trusted base

* Coq's kernel (8.16.1) and `coqc`.
* `Print Assumptions` is run under every property theorem (see `Properties*.v`).  The output
  is "Closed under the global context" for each of them: no axiom is used, neither of the
  standard library nor our own.  (Tools that list the axioms of all loaded libraries also
  show those declared inside the standard library's `ssr` directory; no theorem uses them.)
* The reading of the Rust source into the model, and the contracts assumed for code outside
  the repository (ndarray, fixedbitset, petgraph's traits, hex2d, num-traits), listed in the
  comments of `Machine.v`, `Store.v`, `Shapes.v` and `SquareGraph.v`; for C64-C66 also the
  transcription of petgraph's `Bfs` and `Dfs` in `Traverse.v`, for C72-C74 that of `astar` in
  `Astar.v`, for C80-C81 that of `dijkstra` in `Dijkstra.v` (costs as integers without overflow, any priority queue),
  for C82-C85 those of `connected_components` and `min_spanning_tree` in `Kruskal.v` (integer weights, any priority queue, any
  union-find structure that keeps the contract `UFOK`), for C88-C93 those of `is_bipartite_undirected`, `is_cyclic_undirected`,
  `has_path_connecting` and `DfsPostOrder` in `Clients.v`, for C100 that of `kosaraju_scc` in `Scc.v`, for C103 and C104
  that of `floyd_warshall` in `Floyd.v` (prices of a bounded integer type, non-negative in the theorems), for C106 and C107 that of
  `depth_first_search` in `DfsEvents.v` (visitors that prune are those of C137; its recursion is an explicit stack), for C108 and C109 that of `toposort` in `Topo.v` (without a `DfsSpace` of the caller's), for C112 and C113
  that of `tarjan_scc` in `Tarjan.v` (its recursion does not run out of stack), for C117-C121 those of `NodeFiltered` and `EdgeFiltered`
  in `Filtered.v` (filters without side effects), for C122 and C123 those of `Reversed` and `UndirectedAdaptor` in `Adaptors.v`, for C124 and C125 `bellman_ford` in `Bellman.v` (with integer weights), for C126 and C127 `k_shortest_path` in `KShortest.v`, for C128 `maximal_cliques` in `Cliques.v`, for C129 and C130 `all_simple_paths` in `SimplePaths.v`, for C133 and C134 `greedy_matching` in `Matching.v`, for C135 and C136 `Dot` in `Dot.v`, for C137 and C138 `depth_first_search` with `Control` in `PruneDfs.v`, for C139 and C140 `dsatur_coloring` in `Coloring.v` (with any heap that keeps to `MaxHeapOK`).

Modelled: src/lib.rs `unreachable_debug_checked`; all of src/lattice_abstract (shapes.rs,
square.rs, mod.rs, nodes.rs, neighbors.rs, edges.rs), src/hex and src/square (the deprecated
graph), except what follows.

Not modelled: formatting (`Debug`) except for what it reads of a `LatticeGraph` (C97), the order of
`hex2d::Coordinate` (of another crate), benches, the zero-size
property of const shapes (their `Into<usize>` is the constant), memory exhaustion and the
element-size part of the allocation limit (ndarray's limit on the number of elements is
modelled), the allocation made by `visit_map`.  (Panics raised inside closures: C69 and C96.)
