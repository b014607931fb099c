{"id": "C01", "title": "Node weights after construction", "statement": "After LatticeGraph::new_with(shape, n, e), node_weight(c) is Some(n(c)) for every coordinate c on the board and None for every other coordinate; the lookup neither panics nor reads uninitialised memory.", "quantifier": "every shape of the crate (double coordinates with components of equal parity), every board size that can be allocated, every weight function, every coordinate whose location does not overflow isize in a debug build, debug and release", "why_tests_cant": "tests look at a handful of coordinates of a 4x3 or 5x5 board; the claim is about every board size and every coordinate", "anchors": ["src/lattice_abstract/mod.rs: LatticeGraph::new_with, DataMap::node_weight"]}
{"id": "C02", "title": "Edge weights after construction", "statement": "After new_with, edge_weight((c,a)) is Some(e(c,a)) exactly when c is on the board and the cell one step forward along axis a from c is on the board too; otherwise it is None. No lookup ever returns an uninitialised edge slot.", "quantifier": "every shape of the crate (double coordinates with components of equal parity), size, weight function, coordinate (as in C01) and axis, both build modes", "why_tests_cant": "the unset boundary slots are real uninitialised memory; a test cannot show that no input ever reaches one", "anchors": ["src/lattice_abstract/mod.rs: LatticeGraph::new_with, DataMap::edge_weight"]}
{"id": "C03", "title": "Construction succeeds exactly for allocatable boards", "statement": "new_with returns a graph with node_count() = horizontal*vertical for every board whose cell count fits the array library's limit, and panics (never corrupts memory) for larger boards.", "quantifier": "every shape of the crate (double coordinates with components of equal parity) and every pair of sizes", "why_tests_cant": "the limits lie near 2^63 cells and cannot be allocated in a test", "anchors": ["src/lattice_abstract/mod.rs: LatticeGraph::new_with, new_uninit, assume_init", "src/lattice_abstract/nodes.rs: NodeCount"]}
{"id": "C04", "title": "Closure call protocol of new_with", "statement": "new_with calls the node closure once per board cell in index order and, after each node call, the edge closure once for every axis (in axis order) whose forward neighbour is on the board; it never calls the edge closure for an edge that does not exist.", "quantifier": "every shape of the crate (double coordinates with components of equal parity), size and every stateful pair of closures", "why_tests_cant": "FnMut closures can carry arbitrary state, so the order and number of calls matter for every size and history", "anchors": ["src/lattice_abstract/mod.rs: LatticeGraph::new_with"]}
{"id": "C05", "title": "Node index is a bijection", "statement": "to_index maps the board's coordinates one to one onto 0..node_bound(), from_index is its inverse in both directions, and node_bound() = node_count() (compact indexing).", "quantifier": "every shape of the crate (double coordinates with components of equal parity), size, coordinate and index", "why_tests_cant": "round trip over all sizes and coordinates", "anchors": ["src/lattice_abstract/nodes.rs: NodeIndexable, NodeCompactIndexable", "src/lattice_abstract/shapes.rs: Shape::{to_index,index_to_coordinate,index_to_offset,offset_to_index}"]}
{"id": "C06", "title": "node_identifiers lists every node once, in index order", "statement": "Draining node_identifiers() yields every board coordinate exactly once, the i-th being from_index(i), then None forever.", "quantifier": "every shape of the crate (double coordinates with components of equal parity) and every size", "why_tests_cant": "iterator behaviour over all sizes", "anchors": ["src/lattice_abstract/nodes.rs: NodeIndices"]}
{"id": "C07", "title": "node_references pairs every node with its weight", "statement": "Draining node_references() yields (c, current weight of c) for every board coordinate once, in index order, without undefined behaviour.", "quantifier": "every shape of the crate (double coordinates with components of equal parity), every size and every graph reachable by construction and weight writes", "why_tests_cant": "uses unchecked memory access on every node; must hold for all sizes and histories", "anchors": ["src/lattice_abstract/nodes.rs: NodeReferences", "src/lattice_abstract/mod.rs: node_weight_unchecked"]}
{"id": "C08", "title": "Node iterators honour ExactSizeIterator", "statement": "At every point of an iteration, len() and size_hint() of the node_identifiers and node_references iterators report exactly the number of items still to come.", "quantifier": "every shape of the crate (double coordinates with components of equal parity), size and number of items already consumed", "why_tests_cant": "must hold at every intermediate iterator state", "anchors": ["src/lattice_abstract/nodes.rs: NodeIndices::size_hint, NodeReferences (ExactSizeIterator)"]}
{"id": "C09", "title": "Neighbours are the geometrically adjacent cells", "statement": "neighbors(c) and neighbors_directed(c, _) yield, for each direction in index order, the board cell whose centre lies one step in that direction from c (modulo the board width on looped boards), and nothing else.", "quantifier": "every shape that implements its lattice (square, diagonal, hex offset OddR/EvenR plain, directed or E-W looped, hex axial over all four bases plain or directed, E-W looped axial boards of up to two rows (Odd) or one row (Even)), size and board coordinate", "why_tests_cant": "row parity and boundaries interact; all rows, columns and sizes are needed", "anchors": ["src/lattice_abstract/neighbors.rs: Neighbors", "src/lattice_abstract/square.rs: move_coord", "src/hex/offset_based/shapes.rs: move_coord_r, move_coord_r_lew", "src/hex/axial_based/shapes.rs: move_coord_r, move_coord_q"]}
{"id": "C10", "title": "Adjacency is symmetric", "statement": "b is among neighbors(a) if and only if a is among neighbors(b).", "quantifier": "every shape that implements its lattice (square, diagonal, hex offset OddR/EvenR plain, directed or E-W looped, hex axial over all four bases plain or directed, E-W looped axial boards of up to two rows (Odd) or one row (Even)), size and pair of board cells", "why_tests_cant": "all pairs of cells on all boards", "anchors": ["src/lattice_abstract/neighbors.rs", "src/lattice_abstract/shapes.rs: Shape::move_coord"]}
{"id": "C11", "title": "is_adjacent agrees with neighbors", "statement": "is_adjacent(matrix, a, b) and the shape's is_neighbor(a, b) are true exactly when b occurs in neighbors(a); get_direction(a,b) returns a direction leading from a to b exactly then.", "quantifier": "every shape that implements its lattice (square, diagonal, hex offset OddR/EvenR plain, directed or E-W looped, hex axial over all four bases plain or directed, E-W looped axial boards of up to two rows (Odd) or one row (Even)), size, board cell a and coordinate b", "why_tests_cant": "all pairs of coordinates", "anchors": ["src/lattice_abstract/neighbors.rs: GetAdjacencyMatrix", "src/lattice_abstract/shapes.rs: Shape::{is_neighbor,get_direction}"]}
{"id": "C12", "title": "edges(a) lists each incident edge with the right endpoints and weight", "statement": "edges(a) yields, for each direction in index order with a neighbour b, one reference with source a, target b, that direction, and the current weight of the edge joining a and b; it never touches an uninitialised slot.", "quantifier": "as C09, and every other shape on which edges() is free of undefined behaviour; every board cell and every graph reachable by construction and weight writes", "why_tests_cant": "unsafe unchecked reads in both directions of every axis; must hold for every cell, size and history", "anchors": ["src/lattice_abstract/edges.rs: Edges, DtMarker::get_raw_id", "src/lattice_abstract/mod.rs: edge_weight_unchecked_raw"]}
{"id": "C13", "title": "An undirected edge has one weight seen from both ends", "statement": "On an undirected graph, if edges(a) shows an edge to b in direction d with weight w then edges(b) shows the edge back to a in the opposite direction with the same weight w.", "quantifier": "every (lattice implementing, as in C09) undirected shape, size, cell, direction and write history", "why_tests_cant": "all histories of writes and all edges", "anchors": ["src/lattice_abstract/edges.rs: DtMarker::get_raw_id"]}
{"id": "C14", "title": "The id of an edge reference identifies that edge", "statement": "For every reference r obtained from edges, edges_directed or edge_references, edge_weight(r.id()) is Some of r.weight().", "quantifier": "every supported shape, size, board cell and iterator", "why_tests_cant": "every direction at every cell", "anchors": ["src/lattice_abstract/edges.rs: EdgeRef::id"]}
{"id": "C15", "title": "edge_references lists every edge exactly once", "statement": "edge_references() yields one reference per existing edge slot (c, axis), in node order then axis order, with source c, the forward neighbour as target and the current weight; all ids are distinct and are exactly the ids for which edge_weight is Some.", "quantifier": "every shape of the crate (double coordinates with components of equal parity), size and write history", "why_tests_cant": "exactly-once over all sizes and histories", "anchors": ["src/lattice_abstract/edges.rs: EdgeReferences"]}
{"id": "C16", "title": "edges_directed(Outgoing) equals edges", "statement": "edges_directed(a, Outgoing) yields the same references as edges(a).", "quantifier": "as C12, both build modes", "why_tests_cant": "all cells and sizes", "anchors": ["src/lattice_abstract/edges.rs: IntoEdgesDirected"]}
{"id": "C17", "title": "edges_directed(Incoming) on undirected graphs", "statement": "On an undirected graph edges_directed(a, Incoming) yields the same edges as edges(a) with source and target exchanged.", "quantifier": "every (lattice implementing, as in C09) undirected shape, size, board cell and history", "why_tests_cant": "all cells and sizes", "anchors": ["src/lattice_abstract/edges.rs: DtMarker for petgraph::Direction"]}
{"id": "C18", "title": "edges_directed(Incoming) on directed graphs", "statement": "On a directed graph edges_directed(a, Incoming) yields, for every b with an edge b->a, one reference with source b, target a and the weight of that edge, in both build modes.", "quantifier": "every (lattice implementing, as in C09) directed shape, size, board cell and history, both build modes", "why_tests_cant": "all cells; the failing path is a debug assertion on data", "anchors": ["src/lattice_abstract/edges.rs: DtMarker for petgraph::Direction, Edges::next"]}
{"id": "C19", "title": "Weight writes behave like a map", "statement": "Writing through node_weight_mut / edge_weight_mut changes exactly that node's or edge's weight: later reads through any accessor see the last write to each node and edge and everything else unchanged; writes to coordinates or edges that do not exist return None and change nothing.", "quantifier": "every shape of the crate (double coordinates with components of equal parity), size and finite sequence of writes at coordinates as in C01", "why_tests_cant": "all operation histories", "anchors": ["src/lattice_abstract/mod.rs: DataMapMut"]}
{"id": "C20", "title": "Opposite directed edges are independent", "statement": "On a directed graph the edges a->b and b->a carry independent weights: writing one never changes the other.", "quantifier": "every (lattice implementing, as in C09) directed shape, size, pair of neighbouring cells and history", "why_tests_cant": "all histories", "anchors": ["src/lattice_abstract/mod.rs: DataMapMut::edge_weight_mut", "src/lattice_abstract/square.rs: DirectedSquareAxis"]}
{"id": "C21", "title": "Lookups with any coordinate value are total", "statement": "node_weight, edge_weight, is_visited and to_offset return None/false/Err for every off-board coordinate value the type can hold, and never panic.", "quantifier": "every shape, size and every representable coordinate including the extremes of usize/isize, both build modes", "why_tests_cant": "2^128 coordinates", "anchors": ["src/lattice_abstract/square.rs: range_check", "src/hex/axial_based/shapes.rs: HexAxialShape::to_offset"]}
{"id": "C22", "title": "edges of an off-board coordinate", "statement": "edges(c) of a coordinate outside the board is empty, as neighbors/edge_weight report nothing there, and does not fault.", "quantifier": "every shape, size and off-board coordinate, both build modes", "why_tests_cant": "all off-board coordinates; release mode is undefined behaviour a test cannot observe reliably", "anchors": ["src/lattice_abstract/edges.rs: Edges::new_d"]}
{"id": "C23", "title": "Visit map behaves like a set of nodes", "statement": "For any history of visit/unvisit/reset_map, visit(c) returns true exactly on the first visit since the last unvisit/reset, is_visited(c) tells whether c is currently marked, and marking one node never affects another; off-board coordinates are never marked and never panic.", "quantifier": "every shape of the crate (double coordinates with components of equal parity), size and finite sequence of operations on coordinates as in C01", "why_tests_cant": "all histories", "anchors": ["src/lattice_abstract/mod.rs: VisMap, Visitable"]}
{"id": "C24", "title": "unvisit reports whether the node was visited", "statement": "unvisit(c) returns true if and only if c was marked as visited before the call (petgraph's VisitMap contract).", "quantifier": "every (lattice implementing, as in C09) shape, size and history", "why_tests_cant": "all histories", "anchors": ["src/lattice_abstract/mod.rs: VisMap::unvisit", "src/square/mod.rs: VisMap::unvisit"]}
{"id": "C25", "title": "Axis and direction indexing laws", "statement": "For every axis type: from_index/to_index and dir_from_index/dir_to_index are mutually inverse and defined exactly below COUNT / UNDIRECTED_COUNT; foward and backward of an axis map back to it; a direction is forward for exactly one of the two orientations of an undirected axis; backward is an involution on directed axes.", "quantifier": "every axis type, every axis, direction and every usize index", "why_tests_cant": "every index value, including out of range ones", "anchors": ["src/lattice_abstract/shapes.rs: Axis, AxisDirection", "src/lattice_abstract/square.rs", "src/hex/shapes/mod.rs"]}
{"id": "C26", "title": "Moving there and back returns to the start", "statement": "If move_coord(c, d) = Ok(c') for a board cell c then c' is on the board and move_coord(c', opposite d) = Ok(c).", "quantifier": "every shape that implements its lattice (square, diagonal, hex offset OddR/EvenR plain, directed or E-W looped, hex axial over all four bases plain or directed, E-W looped axial boards of up to two rows (Odd) or one row (Even)), size, board cell and direction", "why_tests_cant": "all cells, parities and boundaries", "anchors": ["src/lattice_abstract/square.rs: move_coord", "src/hex/offset_based/shapes.rs", "src/hex/axial_based/shapes.rs"]}
{"id": "C27", "title": "Offset and axial hex graphs are the same graph", "statement": "For the same parity (OddR or EvenR) and size, the offset-coordinate and axial-coordinate hex graphs are isomorphic: the cell stored at each offset has neighbours at the same offsets in the same directions, in directed and undirected variants.", "quantifier": "every size, cell and direction, OddR and EvenR", "why_tests_cant": "all cells and sizes", "anchors": ["src/hex/offset_based/shapes.rs: move_coord_r", "src/hex/axial_based/shapes.rs: to_offset, offset_to_coordinate, move_coord"]}
{"id": "C28", "title": "E-W loop of the offset hex graph", "statement": "On an offset-coordinate OddR/EvenR graph with LoopEW, moving E or W from any board cell always succeeds and stays on the board, moving E horizontal() times returns to the start, E and W are inverse, and NE/NW/SE/SW fail only at the top/bottom rows.", "quantifier": "every size and board cell", "why_tests_cant": "all widths; number of moves is unbounded", "anchors": ["src/hex/offset_based/shapes.rs: move_coord_r_lew"]}
{"id": "C29", "title": "E-W loop of the axial hex graph", "statement": "On an axial-coordinate graph with LoopEW, moving from a board cell in any direction that stays within the rows yields a board cell (the wrapped one), so that E/W always succeed and horizontal() moves E return to the start.", "quantifier": "every base, size and board cell", "why_tests_cant": "existing tests only look at rows 0, 1 and 2 away from the east edge", "anchors": ["src/hex/axial_based/shapes.rs: Shape for HexAxialShape<B, LoopEW>::move_coord"]}
{"id": "C30", "title": "Axial OddQ/EvenQ boards have the documented flat-top layout", "statement": "The board of an axial OddQ/EvenQ graph is the column-offset layout drawn in the module documentation: the cell in column x, row y has coordinate (x, y - (x+parity)/2).", "quantifier": "every size and cell", "why_tests_cant": "all cells; the existing test only checks a round trip", "anchors": ["src/hex/shapes/mod.rs: RQ for OddQ/EvenQ", "src/hex/axial_based/shapes.rs: to_offset, offset_to_coordinate", "src/hex/axial_based/mod.rs docs"]}
{"id": "C31", "title": "Offset OddQ/EvenQ graphs are well-formed graphs", "statement": "On offset-coordinate OddQ/EvenQ graphs every move from a board cell ends on the board or fails, moves are reversible, and edges() reads only initialised slots.", "quantifier": "every size, cell and direction", "why_tests_cant": "no test covers these shapes", "anchors": ["src/hex/offset_based/shapes.rs: move_coord_q"]}
{"id": "C32", "title": "E-W loop of offset OddQ/EvenQ graphs", "statement": "With LoopEW on OddQ/EvenQ offset graphs, N/S moves change the row, every move is reversible, and adjacency is symmetric.", "quantifier": "every size and cell", "why_tests_cant": "no test covers these shapes", "anchors": ["src/hex/offset_based/shapes.rs: move_coord_q_lew"]}
{"id": "C33", "title": "Double-coordinate hex graphs are connected boards", "statement": "On a double-coordinate graph each coordinate accepted by the shape denotes one node, every pair of geometrically adjacent cells of the board is joined in both directions, is_adjacent agrees with neighbors, and edges() reads only initialised slots.", "quantifier": "every size and cell", "why_tests_cant": "no test covers this shape", "anchors": ["src/hex/double_coord/shapes.rs: to_offset, move_coord_r, is_neighbor"]}
{"id": "C34", "title": "Dropping a graph drops each edge weight exactly once", "statement": "When a graph whose edge type needs dropping is dropped, every initialised edge weight is dropped exactly once and no uninitialised slot is ever dropped.", "quantifier": "every shape, size and edge type that needs drop", "why_tests_cant": "double drops are undefined behaviour, visible only by luck in a test", "anchors": ["src/lattice_abstract/mod.rs: Drop for LatticeGraph"]}
{"id": "C35", "title": "Cloning or comparing a graph touches only initialised data", "statement": "clone() of a graph yields a graph with equal weights and never reads an uninitialised edge slot.", "quantifier": "every shape, size and weight type (Copy or not)", "why_tests_cant": "reading uninitialised memory is undefined behaviour, not observable in a test", "anchors": ["src/lattice_abstract/mod.rs: derive(Clone, PartialEq, Hash) for LatticeGraph"]}
{"id": "C36", "title": "Unchecked variants agree with the checked ones", "statement": "On valid arguments to_offset_unchecked, move_coord_unchecked, node_weight_unchecked, edge_weight_unchecked and their mutable forms return the same result as the checked functions, without undefined behaviour.", "quantifier": "every shape of the crate (double coordinates with components of equal parity), size and valid argument, every history", "why_tests_cant": "undefined behaviour is not observable by tests", "anchors": ["src/lattice_abstract/mod.rs: node_weight_unchecked, edge_weight_unchecked, ..._mut_unchecked", "src/lattice_abstract/shapes.rs: to_offset_unchecked, move_coord_unchecked"]}
{"id": "C37", "title": "hex2d direction conversions", "statement": "Converting hex2d::Direction to AxisDR/AxisDQ and back is the identity in both orders, and moving a coordinate in the converted direction is the same as adding the hex2d direction.", "quantifier": "every direction", "why_tests_cant": "finite, but the tests do not cover it at all", "anchors": ["src/hex/hex2d.rs: From<hex2d::Direction> for AxisDR/AxisDQ and back"]}
{"id": "C38", "title": "Graphs over narrow hex2d integers", "statement": "A hex2d graph whose board fits the coordinate integer type behaves exactly like the axial graph of the same size; one that does not fit is rejected by a panic rather than by undefined behaviour.", "quantifier": "every integer width, size and cell, both build modes", "why_tests_cant": "boundary sizes of each integer type", "anchors": ["src/hex/hex2d.rs: AxialCoord for hex2d::Coordinate"]}
{"id": "C39", "title": "Adjacency iterators are fused and bounded", "statement": "neighbors, edges, edges_directed and edge_references iterators keep returning None after the end, and at every point the upper bound of size_hint is at least the number of remaining items.", "quantifier": "every shape, size, cell and number of items consumed; the size hint of edge_references on boards with fewer than 2^64 directions (nodes times directions per node)", "why_tests_cant": "every intermediate iterator state", "anchors": ["src/lattice_abstract/neighbors.rs: Neighbors::size_hint", "src/lattice_abstract/edges.rs: Edges::size_hint, EdgeReferences::size_hint"]}
{"id": "C40", "title": "SquareGraph construction", "statement": "SquareGraph::new_with(h, v, fnode, fedge) builds a graph with h x v nodes, and (h or h-1) x v horizontal and h x (v or v-1) vertical edges depending on the loop marker, passing its own consistency assertion; it panics for h = 0 and, on non-looping boards, for v = 0.", "quantifier": "every h, v, loop marker and weight functions, both build modes", "why_tests_cant": "all sizes", "anchors": ["src/square/mod.rs: SquareGraph::new_with, new_raw, check_gen"]}
{"id": "C41", "title": "SquareGraph weights by position", "statement": "After new_with, node_weight((x,y)) = Some(fnode(x,y)) iff x<h and y<v, and edge_weight(((x,y),axis)) = Some(fedge(x,y,axis)) iff the edge from (x,y) one step right/up exists (wrapping on looped axes); otherwise None.", "quantifier": "every h, v, loop marker, position, axis and weight function", "why_tests_cant": "all sizes and positions", "anchors": ["src/square/mod.rs: DataMap for SquareGraph"]}
{"id": "C42", "title": "SquareGraph node index is a bijection", "statement": "to_index and from_index are mutually inverse between board positions and 0..node_bound(), for every index type able to represent the board's sides.", "quantifier": "every h, v and index type", "why_tests_cant": "every index width and every size up to its limits", "anchors": ["src/square/nodes.rs: NodeIndexable for SquareGraph", "src/square/index.rs"]}
{"id": "C43", "title": "SquareGraph node iterators", "statement": "node_identifiers() yields every position once in index order with an exact size_hint at every point, and node_references() pairs each with its weight.", "quantifier": "every h, v (including v = 0), index type and iterator state", "why_tests_cant": "all sizes and intermediate states", "anchors": ["src/square/nodes.rs: NodeIndices, NodeReferences"]}
{"id": "C44", "title": "SquareGraph neighbours", "statement": "neighbors((x,y)) yields left, right, down, up of (x,y), each exactly when it exists on the board (wrapping on looped axes), in that order.", "quantifier": "every h, v, loop marker, index type and board position", "why_tests_cant": "all boundaries and sizes", "anchors": ["src/square/neighbors.rs: Neighbors"]}
{"id": "C45", "title": "SquareGraph edges agree with neighbours and ids", "statement": "edges(a) yields one reference per neighbour in the same order, with source a, target the neighbour, weight = edge_weight(id), the opposite reference from the neighbour has the same id, and no out-of-bounds access happens.", "quantifier": "every h, v, loop marker, index type, board position and write history", "why_tests_cant": "unchecked array reads at every boundary", "anchors": ["src/square/edges.rs: Edges, EdgeReference"]}
{"id": "C46", "title": "SquareGraph edge_references", "statement": "edge_references() yields each edge exactly once with its weight and with source and target its two endpoints; the number of items is (horizontal edges) + (vertical edges).", "quantifier": "every h, v, loop marker, index type", "why_tests_cant": "exactly-once over all sizes", "anchors": ["src/square/edges.rs: EdgeReferences"]}
{"id": "C47", "title": "get_edge_id names the edge in that direction", "statement": "get_edge_id(n, dir) and get_edge_reference(n, dir) return the edge that joins n to its neighbour in direction dir, i.e. the one edges(n) reports for that neighbour, with source n.", "quantifier": "every h, v, loop marker, board position and direction", "why_tests_cant": "the wrap-around cases on every board", "anchors": ["src/square/mod.rs: get_edge_id, get_edge_reference"]}
{"id": "C48", "title": "get_edge_reference is memory safe", "statement": "The safe function get_edge_reference never reads outside the edge arrays, whatever node index it is given.", "quantifier": "every h, v, loop marker, node index and direction, both build modes", "why_tests_cant": "out-of-bounds reads are undefined behaviour", "anchors": ["src/square/mod.rs: get_edge_reference"]}
{"id": "C49", "title": "distance is the shortest-path length", "statement": "NodeIndex::distance is symmetric, zero only on equal positions, satisfies the triangle inequality, and on a non-looping board equals the length of a shortest path following neighbors (so it is an admissible A* heuristic).", "quantifier": "every board, every pair of positions and every path", "why_tests_cant": "all paths of all lengths", "anchors": ["src/square/index.rs: NodeIndex::distance", "src/square/neighbors.rs"]}
{"id": "C50", "title": "SquareGraph visit map", "statement": "For any history of visit/unvisit/reset on board positions the SquareGraph visit map behaves like a set of positions.", "quantifier": "every h, v and finite history", "why_tests_cant": "all histories", "anchors": ["src/square/mod.rs: VisMap"]}
{"id": "C51", "title": "SquareGraph weight writes behave like a map", "statement": "node_weight_mut and edge_weight_mut change exactly the addressed weight; later reads through any accessor see the latest write and nothing else changes.", "quantifier": "every h, v, loop marker and finite sequence of writes", "why_tests_cant": "all histories", "anchors": ["src/square/mod.rs: DataMapMut for SquareGraph"]}
{"id": "C52", "title": "Migrating from SquareGraph to UndirectedSquareGraph", "statement": "A SquareGraph without loops and an UndirectedSquareGraph built from the same size and weight functions have the same node indices, node weights, edge weights (Horizontal=X, Vertical=Y) and, for each node, the same neighbours with the same edge weights up to order.", "quantifier": "every h, v >= 1, weight functions and position", "why_tests_cant": "all sizes and positions", "anchors": ["src/square/mod.rs", "src/lattice_abstract/square.rs: SquareShape"]}
{"id": "C53", "title": "Boards are connected", "statement": "Following neighbors, every board cell can be reached from every other.", "quantifier": "every (lattice implementing, as in C09) shape, size and pair of cells", "why_tests_cant": "paths of unbounded length", "anchors": ["src/lattice_abstract/neighbors.rs", "src/square/neighbors.rs"]}
{"id": "C54", "title": "Number of edges", "statement": "edge_references() has (h-1)*v + h*(v-1) items on an undirected square graph (twice that when directed), matching horizontal_edge_size * vertical_edge_size per axis; the corresponding closed formulas hold for diagonal and hex boards.", "quantifier": "every size", "why_tests_cant": "all sizes", "anchors": ["src/lattice_abstract/square.rs: horizontal_edge_size, vertical_edge_size", "src/lattice_abstract/edges.rs: EdgeReferences"]}
{"id": "C55", "title": "Directed and undirected variants share adjacency", "statement": "The directed variant of a shape has the same nodes, indices and neighbors lists as the undirected one of the same size.", "quantifier": "every shape with both variants, size and cell", "why_tests_cant": "all sizes and cells", "anchors": ["src/lattice_abstract/square.rs: SquareShape<Directed>, SquareDiagonalShape<Directed>", "src/hex/shapes/mod.rs: DirectedMarker"]}
{"id": "C56", "title": "neighbors of an off-board coordinate", "statement": "neighbors(c) of a coordinate outside the board is empty and is_adjacent(c, x) is false, so that an algorithm started at a coordinate that is not a node finds nothing.", "quantifier": "every shape, size and off-board coordinate", "why_tests_cant": "unboundedly many off-board coordinates and board sizes; the existing tests only start at nodes", "anchors": ["src/lattice_abstract/neighbors.rs: NeighborsState", "src/lattice_abstract/square.rs: move_coord"]}
{"id": "C57", "title": "Every move terminates", "statement": "move_coord returns for every coordinate and direction: the loop that wraps axial coordinates of E-W looped boards ends.", "quantifier": "every looped axial shape, size (including boards without columns), coordinate and direction", "why_tests_cant": "termination for all coordinates of type isize; a test cannot observe divergence", "anchors": ["src/hex/axial_based/shapes.rs:339-345: LoopEW wrapping loops"]}
{"id": "C58", "title": "SquareGraph's array accessors keep it safe to traverse", "statement": "Whatever safe code does through nodes_mut, horizontal_mut and vertical_mut, edges() and edge_references() never read outside the arrays.", "quantifier": "every board, every change of the arrays and both build modes", "why_tests_cant": "out-of-bounds reads are undefined behaviour, and the possible changes are unbounded", "anchors": ["src/square/mod.rs: nodes_mut, horizontal_mut, vertical_mut", "src/square/edges.rs: Edges"]}
{"id": "C59", "title": "distance is an admissible heuristic on looped boards", "statement": "On boards with HorizontalLoop, VerticalLoop or HVLoop, NodeIndex::distance never exceeds the length of a path following neighbors, so that A* with it finds a shortest path.", "quantifier": "every looped board, pair of positions and path", "why_tests_cant": "all paths of all lengths on all boards", "anchors": ["src/square/index.rs: NodeIndex::distance", "src/square/mod.rs: SquareShape markers"]}
{"id": "C60", "title": "A board too large for its index type is refused", "statement": "new_with panics when the index type cannot represent every column and every row, instead of building a graph whose node identifiers are ambiguous.", "quantifier": "every index type and size", "why_tests_cant": "every index width and size; tests only use small boards", "anchors": ["src/square/mod.rs: SquareGraph::new_with", "src/square/nodes.rs: NodeIndices"]}
{"id": "C61", "title": "edges() of a SquareGraph is memory safe for every position", "statement": "edges(n) never reads outside the edge arrays, also when n is not a node of the board.", "quantifier": "every board, node index and build mode", "why_tests_cant": "out-of-bounds reads are undefined behaviour", "anchors": ["src/square/edges.rs: Edges, IntoEdges for &SquareGraph"]}
{"id": "C62", "title": "neighbors() of a SquareGraph outside the board is empty", "statement": "neighbors(n) of a position that is not on the board yields nothing.", "quantifier": "every board and off-board position", "why_tests_cant": "unboundedly many positions and boards", "anchors": ["src/square/neighbors.rs: Neighbors"]}
{"id": "C63", "title": "Steps needed between two cells are the lattice distance", "statement": "The smallest number of moves, each to one of the neighbors(), that leads from a to b is the distance of the two cells in the plane: the taxicab distance on square boards, the chessboard distance on boards with diagonals, the hexagonal distance on hexagon boards, and on looped boards the distance to the nearest copy of b around the loop. In particular the path-finding algorithms of petgraph can use these distances as an exact heuristic, and no route around a rim or through a corner is missing or too short.", "quantifier": "every shape that implements a lattice (square, diagonal, offset R, axial R/Q, directed and undirected, the loops that work), every board size, every pair of cells, all walks of any length, both build modes", "why_tests_cant": "there are unboundedly many boards, pairs of cells and walks; a test can only sample small ones", "anchors": ["src/lattice_abstract/neighbors.rs: Neighbors", "src/hex/axial_based/shapes.rs: move_coord", "src/hex/offset_based/shapes.rs: move_coord", "src/lattice_abstract/square.rs: move_coord"]}
{"id": "C64", "title": "Breadth first search covers the board in order of distance", "statement": "Running petgraph's Bfs over a lattice graph from any node on the board ends without panic, yields every node of the board exactly once, the start first, and never yields a node before one that needs fewer steps from the start.", "quantifier": "every supported shape and size (including directed and looped ones), every start node, both build modes", "why_tests_cant": "the traversal depends on neighbors(), visit_map() and the index arithmetic agreeing on every cell of every board; a test can only try some boards", "anchors": ["src/lattice_abstract/neighbors.rs: Neighbors", "src/lattice_abstract/mod.rs: Visitable, VisitMap"]}
{"id": "C65", "title": "Depth first search covers the board", "statement": "Running petgraph's Dfs over a lattice graph from any node on the board ends without panic and yields every node of the board exactly once, the start first, each later node being one of the neighbors() of a node that came before it.", "quantifier": "every supported shape and size, every start node, both build modes", "why_tests_cant": "as C64; the order depends on every cell's neighbour list", "anchors": ["src/lattice_abstract/neighbors.rs: Neighbors", "src/lattice_abstract/mod.rs: Visitable, VisitMap"]}
{"id": "C66", "title": "Both searches cover the board of a SquareGraph", "statement": "Bfs and Dfs over a SquareGraph from any node end without panic, yield every node exactly once, the start first; Bfs in order of the steps needed, Dfs always next to an earlier node.", "quantifier": "every loop marker, every size its index type can hold, every start node, both build modes", "why_tests_cant": "unboundedly many boards and start nodes", "anchors": ["src/square/neighbors.rs: Neighbors", "src/square/mod.rs: VisitMap, Visitable"]}
{"id": "C67", "title": "Steps needed on a SquareGraph are the taxicab distance around its loops", "statement": "The smallest number of moves between two nodes of a SquareGraph, each to one of the neighbors(), is the sum over both axes of the distance along the axis, which on a looped axis is the shorter way around.", "quantifier": "every loop marker, size and pair of nodes, walks of any length, both build modes", "why_tests_cant": "unboundedly many boards, pairs and walks", "anchors": ["src/square/neighbors.rs: Neighbors", "src/square/mod.rs: the loop markers"]}
{"id": "C68", "title": "Filling an uninitialised graph gives the graph of new_with", "statement": "A graph from new_uninit whose nodes and edges were all written through node_weight_mut and edge_weight_mut, in any order and any number of times, is after assume_init the graph that new_with makes of the same weights; and none of these writes is refused. So everything that holds of graphs made by new_with holds of graphs made this way.", "quantifier": "every shape and board size, every order and multiplicity of writes, all weights, both build modes", "why_tests_cant": "the number of write orders is unbounded, and a slot that was left unwritten shows only as undefined behaviour", "anchors": ["src/lattice_abstract/mod.rs: new_uninit, assume_init, node_weight_mut, edge_weight_mut"]}
{"id": "C69", "title": "new_with is safe when a closure panics", "statement": "If a closure given to new_with panics, the calls made are the usual ones up to that call, no further call follows, and unwinding runs no destructor of any node or edge weight (those made so far are leaked, none is dropped twice and no unwritten slot is dropped).", "quantifier": "every shape and board size, every pair of stateful closures and every point at which they panic, both build modes", "why_tests_cant": "a double drop or the drop of an uninitialised slot is undefined behaviour which a passing test does not exclude; the panic can occur at any of unboundedly many calls", "anchors": ["src/lattice_abstract/mod.rs: new_with, Drop for LatticeGraph"]}
{"id": "C70", "title": "Directions, steps and edge ids of SquareGraph agree", "statement": "EdgeIndex::from((node, direction)) (get_edge_id_unchecked) names the edge that joins the node to its neighbour in that direction, except for a step back over the rim, where it panics, or wraps around the index type without debug assertions; up(), down(), left() and right() of SquareDirection and of NodeIndex lead to the same neighbour; converting a SquareDirection to (Axis, bool) and back loses nothing.", "quantifier": "every h, v, loop marker, index type, node and direction, both build modes", "why_tests_cant": "all boards and index types; the conversions are used generically", "anchors": ["src/square/index.rs: SquareDirection, NodeIndex::get_edge_id_unchecked, up, down, left, right"]}
{"id": "C71", "title": "new_raw checks the sizes of its arrays", "statement": "new_raw accepts three arrays whose sizes belong to one board, and the graph then holds exactly the weights of the arrays. With debug assertions it panics on arrays of any other sizes; without them it accepts every array and does not look at the sizes.", "quantifier": "every loop marker, index type, board size and arrays, both build modes", "why_tests_cant": "unboundedly many combinations of six sizes, of which only one per board is right", "anchors": ["src/square/mod.rs: new_raw, check_gen"]}
{"id": "C72", "title": "A* finds cheapest paths on LatticeGraph", "statement": "petgraph's astar on a LatticeGraph, from any node, with costs that are not negative, ends without panic or undefined behaviour whatever the estimates are; it gives None only if no node of the board is a goal, and otherwise a path along edges from the start to a goal that costs no more than the cost it reports. If the estimates never exceed the true cost the path is a cheapest one and its cost is the reported one. If they exceed it by at most some amount, the cost reported exceeds that of a cheapest path by no more than that amount. The lattice distance is such an estimate when every step costs at least one; when every step costs exactly one the reported cost is that distance.", "quantifier": "every shape with a lattice, size, graph, cost and estimate function, goal set, start, priority queue, both build modes", "why_tests_cant": "all boards, weights and heuristics, and all runs of a search of unbounded length; a test fixes one board", "anchors": ["src/lattice_abstract/edges.rs: edges", "src/lattice_abstract/square.rs: tests::astar"]}
{"id": "C73", "title": "A* finds cheapest paths on SquareGraph", "statement": "The same for SquareGraph with every loop marker: astar ends, finds a goal if there is one, and gives a cheapest path for estimates that do not exceed the true cost, among them the (ring) distance when steps cost at least one. Estimates that are too high by some amount make the path dearer by that amount at most.", "quantifier": "every h, v, loop marker, index type, graph, cost and estimate function, goal set, start, priority queue, both build modes", "why_tests_cant": "as C72", "anchors": ["src/square/edges.rs: Edges", "src/square/tests.rs: astar"]}
{"id": "C74", "title": "NodeIndex::distance is a good A* heuristic", "statement": "astar with NodeIndex::distance to the goal as the estimate, as in the tests, finds a cheapest path when every step costs at least one. True without loops; on looped boards distance ignores the loops and the search can give a path that is not cheapest; its cost exceeds that of a cheapest path by no more than the looped sides less two each, so the claim holds on boards whose looped sides are at most two long.", "quantifier": "every h, v, loop marker, index type, cost function, start and goal", "why_tests_cant": "the tests only search one board without loops", "anchors": ["src/square/index.rs: NodeIndex::distance", "src/square/tests.rs: astar"]}
{"id": "C75", "title": "edges and neighbors over all nodes give edge_references from both ends", "statement": "Collecting edges (or neighbors) over all node_identifiers gives exactly the (source, target, weight) triples of edge_references, and on an undirected graph each of them once more with source and target exchanged, with the same weight. So the numbers of neighbours add up to twice the number of edges (once, if directed). On directed graphs the two ways give the same references in the same order.", "quantifier": "every shape whose moves can be undone (Supported; for directed graphs every Traversable shape), every size, every graph after any history of writes, both build modes", "why_tests_cant": "a count and permutation over all nodes of boards of every size; tests look at single nodes", "anchors": ["src/lattice_abstract/edges.rs: Edges, EdgeReferences", "src/lattice_abstract/neighbors.rs: Neighbors"]}
{"id": "C76", "title": "SquareGraph: edges over all nodes give edge_references from both ends", "statement": "Collecting edges over all node_identifiers of a SquareGraph gives exactly the edges of edge_references (id, weight, source, target) and each once more with source and target exchanged; the numbers of neighbors add up to twice the number of edges. An edge that joins a node to itself on a looped board counts twice too.", "quantifier": "every h, every v >= 1, loop marker, index type, graph, both build modes", "why_tests_cant": "as C75", "anchors": ["src/square/edges.rs", "src/square/neighbors.rs"]}
{"id": "C77", "title": "A borrowed shape behaves like the shape", "statement": "&S as a shape answers every method as S does, and a LatticeGraph over &S is made, read, written, iterated, cloned and dropped exactly like one over S. False for the two deprecated methods horizontal_edge_size and vertical_edge_size, which are not forwarded and give other values for SquareShape.", "quantifier": "every shape (also shapes not in this crate), every coordinate, graph and state, both build modes", "why_tests_cant": "tests never use a borrowed shape", "anchors": ["src/lattice_abstract/shapes.rs: impl Shape for &S"]}
{"id": "C78", "title": "Indices of no axis or direction", "statement": "from_index_unchecked and dir_from_index_unchecked called with an index out of range are undefined behaviour without debug assertions, so their documented precondition cannot be relaxed; with debug assertions they panic. The last part is false for SquareAxis and DirectedSquareDiagonalAxis, which are undefined behaviour in both builds.", "quantifier": "every axis type of the crate, every index", "why_tests_cant": "no test can observe undefined behaviour, and there is no largest index to try", "anchors": ["src/lattice_abstract/square.rs:44-50, 410-422", "src/lattice_abstract/shapes.rs:233-235", "src/hex/shapes/mod.rs"]}
{"id": "C79", "title": "The deprecated direction methods agree with their replacement", "statement": "AxisDirection::is_forward agrees with Axis::is_forward_direction, which its deprecation note names as the replacement, and the deprecated Direction<T> numbers forward and backward directions without gaps and converts both ways. The first part holds for directed axes; for each undirected axis is_forward is true for a direction that is not forward.", "quantifier": "every axis type of the crate, every direction and index, both build modes", "why_tests_cant": "tests never call the deprecated methods, and Direction<T> is generic in the axis", "anchors": ["src/lattice_abstract/shapes.rs:254-342"]}
{"id": "C80", "title": "Dijkstra's search gives the least cost to every cell", "statement": "petgraph's dijkstra on a LatticeGraph ends without a fault; without a goal its map has exactly the cells of the board, each with the least cost of a route from the start along edges of the graph; with a goal the goal and every nearer cell have their least cost and no entry is less than the cost of a route. With unit costs the entries are the distances of the lattice.", "quantifier": "every supported shape and size, graph, start and goal (also none, and no node), every cost function that is not negative on edges, every priority queue, both build modes", "why_tests_cant": "boards, weights and ties of the queue are unbounded; the only search in the tests is one A* run per graph type", "anchors": ["src/lattice_abstract/edges.rs", "src/lattice_abstract/mod.rs: VisMap, Visitable"]}
{"id": "C81", "title": "SquareGraph: Dijkstra's search gives the least cost to every node", "statement": "As C80 for SquareGraph; with unit costs the entries are the distances on the board, counting ways through the loops.", "quantifier": "every size, loop marker and index type that fits, graph, start and goal, costs not negative on edges, every priority queue, both build modes", "why_tests_cant": "as C80", "anchors": ["src/square/edges.rs", "src/square/mod.rs:484-520"]}
{"id": "C82", "title": "connected_components counts the connected components", "statement": "petgraph's connected_components on a LatticeGraph ends without a fault with the number of classes into which the edges of the graph link its nodes, as long as no edge leads off the board; on every board with a lattice that is 1, or 0 without nodes, and so it is on all other boards without such an edge except those of doubled coordinates. Those fall apart: the cells in the first w doubled columns are one piece (if w > 1), every other cell is a piece of its own. As soon as one edge leads off the board it panics, as on every looped or column-wise board listed (Leaky, and offset Q boards of the wrong parity).", "quantifier": "every shape of the crate, any union-find structure, both build modes", "why_tests_cant": "the number of boards is unbounded, and no test runs the algorithm", "anchors": ["src/lattice_abstract/edges.rs: EdgeReferences", "src/lattice_abstract/mod.rs: NodeIndexable"]}
{"id": "C83", "title": "SquareGraph: connected_components finds one component", "statement": "petgraph's connected_components on a SquareGraph ends without a fault and answers 1 (0 on a board without rows), whatever is looped.", "quantifier": "every size, loop marker and index type that fits, every graph, any union-find structure, both build modes", "why_tests_cant": "as C82", "anchors": ["src/square/edges.rs", "src/square/mod.rs: NodeIndexable"]}
{"id": "C84", "title": "min_spanning_tree yields all nodes and a lightest spanning tree", "statement": "petgraph's min_spanning_tree on a LatticeGraph with integer weights ends without a fault; it yields the weights of all nodes in order, then edges given by the places of their ends in that order, with their weights. These edges are edges of the graph, link whatever its edges link, are as few as can be, and no other such choice weighs less. On a board with a lattice, and on any other board in one piece, they connect all nodes and are one fewer than the nodes. Where an edge leads off the board the iterator yields the nodes, then perhaps edges of the graph, then panics.", "quantifier": "every shape of the crate, fewer than 2^64 directions with debug assertions, all node weights and integer edge weights, any union-find structure and priority queue, both build modes", "why_tests_cant": "no finite set of weights covers the ties and orders of edges; no test runs the algorithm", "anchors": ["src/lattice_abstract/edges.rs: EdgeReferences", "src/lattice_abstract/nodes.rs: NodeReferences", "src/lattice_abstract/mod.rs: NodeIndexable"]}
{"id": "C85", "title": "SquareGraph: min_spanning_tree yields all nodes and a lightest spanning tree", "statement": "As C84 for SquareGraph: all nodes, then a spanning tree of one edge fewer that no other outweighs downwards, also across the loops.", "quantifier": "every size, loop marker and index type that fits, all weights, any union-find structure and priority queue, both build modes", "why_tests_cant": "as C84", "anchors": ["src/square/edges.rs", "src/square/nodes.rs", "src/square/mod.rs: NodeIndexable"]}
{"id": "C86", "title": "Node ids sort like their indices, except on most axial and doubled boards", "statement": "The derived order of the coordinates of a LatticeGraph agrees with the order of to_index on all rectangular layouts (square, diagonal and offset shapes). On axial boards it agrees exactly when there are no columns or at most two rows (one if the even rows are shifted); on doubled-coordinate boards exactly when there are no columns or at most two rows. There are no other layouts.", "quantifier": "every shape of the crate, every size, every pair of nodes, both build modes", "why_tests_cant": "sorting ids is not tested at all, and small boards agree", "anchors": ["src/lattice_abstract/shapes.rs: Offset", "src/hex/axial_based/shapes.rs: HexAxial", "src/hex/double_coord/shapes.rs: DoubleCoord", "src/lattice_abstract/mod.rs: NodeIndexable"]}
{"id": "C87", "title": "SquareGraph: ids sort like indices and edge_references ascends", "statement": "The derived order of NodeIndex agrees with to_index on a SquareGraph, and two edges of edge_references compare by their EdgeIndex as their places in edge_references do (so it ascends, and an ordered map keyed by them is built in order).", "quantifier": "every size, loop marker and index type that fits, both build modes", "why_tests_cant": "no test compares ids or checks more than one board", "anchors": ["src/square/index.rs: NodeIndex, EdgeIndex, Axis", "src/square/edges.rs: EdgeReferences"]}
{"id": "C88", "title": "is_bipartite_undirected decides two-colourability of every board", "statement": "petgraph's is_bipartite_undirected on a LatticeGraph, from any node, ends without a fault, and answers true exactly if two colours suffice for the board. That is: always on boards of squares without diagonals; with diagonals and on hexagons exactly on single rows and columns, and on looped ones exactly on single rows of even length.", "quantifier": "every supported shape, every size, every start, both build modes", "why_tests_cant": "the answer depends on parities and loops that a few sizes do not show; no test runs the algorithm", "anchors": ["src/lattice_abstract/neighbors.rs", "src/lattice_abstract/mod.rs: VisitMap, Visitable"]}
{"id": "C89", "title": "SquareGraph: is_bipartite_undirected answers whether every loop is even", "statement": "On a SquareGraph, from any node, it ends without a fault and answers true exactly if each looped axis has even length, and that is when two colours suffice.", "quantifier": "every size, loop marker and index type that fits, every start, both build modes", "why_tests_cant": "as C88", "anchors": ["src/square/neighbors.rs", "src/square/mod.rs: Visitable"]}
{"id": "C90", "title": "is_cyclic_undirected tells whether the edges close a cycle", "statement": "petgraph's is_cyclic_undirected on a LatticeGraph ends without a fault and answers false exactly if no edge joins two nodes that the edges before it link. On a board with a lattice that is: single rows and columns without loop; with directed axes, where every edge is there in both directions, only the single cell. On the remaining shapes whose edges end on the board: columns of hexagons close a cycle unless there is one column only (with directed axes, one cell), looped boards always do, boards of doubled coordinates do from three columns and two rows on.", "quantifier": "every shape of the crate whose edges end on the board (all supported ones), any union-find structure, both build modes", "why_tests_cant": "no test runs the algorithm, and the answer depends on the edge list of the whole board", "anchors": ["src/lattice_abstract/edges.rs: EdgeReferences", "src/lattice_abstract/mod.rs: NodeIndexable"]}
{"id": "C91", "title": "SquareGraph: is_cyclic_undirected is false only on single rows and columns without loop", "statement": "It ends without a fault, answers false exactly if the edges are a forest, and on a board with nodes that is exactly a single row or column in which nothing is looped.", "quantifier": "every size, loop marker and index type that fits, any union-find structure, both build modes", "why_tests_cant": "as C90", "anchors": ["src/square/edges.rs", "src/square/mod.rs: NodeIndexable"]}
{"id": "C92", "title": "has_path_connecting finds all of the board and only that; DfsPostOrder visits all of it", "statement": "From a node of a LatticeGraph, has_path_connecting answers true exactly for the nodes of the board (false for any other coordinate), without a fault. DfsPostOrder yields every node once, the start last, and every other node before some node that it is a neighbour of.", "quantifier": "every supported shape, every size, all nodes, both build modes", "why_tests_cant": "the claims are about all nodes of boards of every size; no test runs the algorithms", "anchors": ["src/lattice_abstract/neighbors.rs", "src/lattice_abstract/mod.rs: VisitMap, Visitable"]}
{"id": "C93", "title": "SquareGraph: has_path_connecting and DfsPostOrder cover the board", "statement": "As C92 for SquareGraph, also across the loops.", "quantifier": "every size, loop marker and index type that fits, all nodes, both build modes", "why_tests_cant": "as C92", "anchors": ["src/square/neighbors.rs", "src/square/mod.rs: Visitable"]}
{"id": "C94", "title": "Hashing a graph touches only initialised data, and equal graphs hash alike", "statement": "The derived Hash of LatticeGraph reads only weights that were written, and graphs that compare equal feed the hasher alike. False for edge weights that occupy memory: the slots of edges that do not exist are read. True for zero-sized edge weights.", "quantifier": "every shape and size, every graph after any history, every hash function of the weights", "why_tests_cant": "a test cannot see that memory it reads was never written; it needs all boards", "anchors": ["src/lattice_abstract/mod.rs: LatticeGraph derive(Hash)"]}
{"id": "C95", "title": "new gives default weights; a default square shape is empty", "statement": "LatticeGraph::new gives every node and edge the default weight. With SquareShape's Default (sizes zero), new_with_s never calls its closures and gives a graph without nodes and edges, on which the iterators work.", "quantifier": "every shape and size, both build modes; both kinds of edges for the default shape", "why_tests_cant": "every cell of every board", "anchors": ["src/lattice_abstract/mod.rs: new, new_s, new_with_s, Default", "src/lattice_abstract/square.rs: SquareShape"]}
{"id": "C96", "title": "SquareGraph::new_with is safe and leaks nothing when a closure panics", "statement": "If a closure panics during SquareGraph::new_with, no further call is made, and every weight made before it is dropped exactly once. If none panics, the graph is the one of C40.", "quantifier": "every size, loop marker, index type, stateful closures that panic at any call", "why_tests_cant": "the panic can come at any of unboundedly many calls in three phases", "anchors": ["src/square/mod.rs: SquareGraph::new_with"]}
{"id": "C97", "title": "Printing a graph touches only initialised data", "statement": "The derived Debug of LatticeGraph reads only weights that were written. False for edge weights that occupy memory: slots of edges that do not exist are printed, on every board. True for zero-sized edge weights, where the nodes' weights are shown in the order of node_identifiers.", "quantifier": "every shape and size, every graph after any history, {:?} and {:#?}", "why_tests_cant": "a test cannot see that memory it prints was never written; it needs all boards", "anchors": ["src/lattice_abstract/mod.rs: LatticeGraph derive(Debug)"]}
{"id": "C98", "title": "Bfs, Dfs, DfsPostOrder and has_path_connecting find what neighbors leads to, on every shape", "statement": "On every shape of the crate, also those whose steps cannot be undone or lead off the board, petgraph's Bfs, Dfs and DfsPostOrder from a node end without a fault and yield exactly the nodes that steps of neighbors lead to, each once, the start first or, in post-order, last; Bfs in the order of the number of steps, Dfs each node as a neighbour of an earlier one; DfsPostOrder each node before one that lists it, and after what it lists unless that leads back to it; has_path_connecting is true exactly for such nodes.", "quantifier": "every shape and size of the crate, every graph after any history, every start node and target coordinate, both build modes", "why_tests_cant": "the claim is about all boards, and about which nodes are not found; no test searches a board whose steps are one-way or leave it", "anchors": ["src/lattice_abstract/mod.rs: VisMap, Visitable", "src/lattice_abstract/neighbors.rs: Neighbors", "src/lattice_abstract/shapes.rs: Shape::move_coord"]}
{"id": "C99", "title": "On which shapes following edges is safe", "statement": "A client that starts at a node and calls edges only on targets of edges it was given stays on the board and never faults, on every square, diagonal, axial, offset OddR/EvenR board and the few others listed (Enclosed). On every other shape of the crate some such walk is undefined behaviour in release builds, and that or a panic in debug builds; petgraph's dijkstra without a goal, started where edges lead off the board, always ends so, and from every other node ends with the least costs of all that edges lead to.", "quantifier": "every shape and size of the crate, every graph after any history; for dijkstra every cost function and priority queue; both build modes", "why_tests_cant": "undefined behaviour of release builds is nothing a test can observe reliably; safety is about all boards and walks", "anchors": ["src/lattice_abstract/edges.rs: Edges, Iterator for Edges", "src/lattice_abstract/shapes.rs: Shape::move_coord"]}
{"id": "C100", "title": "kosaraju_scc finds the strongly connected components exactly where every step can be undone by others", "statement": "On every shape petgraph's kosaraju_scc ends without a fault and shares out the nodes among lists, each being what its first node leads to less the lists before, with nodes that lead to each other in one list. All nodes of each list lead to each other exactly if every node leads back to those that lead to it, because neighbors_directed ignores its direction. So it is one list with every node on the shapes whose moves are right and on every SquareGraph with rows, and it is never right on boards of doubled coordinates with more than one column; on a SquareGraph without rows it panics.", "quantifier": "every shape and size of the crate, every graph after any history, both build modes, every SquareGraph", "why_tests_cant": "the claim compares what two searches over the whole graph find with all paths of the graph, for every board; no test runs an algorithm over Reversed", "anchors": ["src/lattice_abstract/neighbors.rs: IntoNeighborsDirected", "src/square/neighbors.rs: IntoNeighborsDirected", "src/lattice_abstract/shapes.rs: Shape::move_coord"]}
{"id": "C101", "title": "A node id made from a pair is that pair", "statement": "Offset, SquareOffset and NodeIndex made from a pair of numbers compare equal to that pair, to no other, and convert back to it, horizontal() and vertical() of Offset being its two numbers; so SquareGraph::node_weight given a pair outside of the board finds nothing. True of Offset and SquareOffset; true of NodeIndex<Ix> exactly for pairs of numbers that Ix holds. With Ix narrower than usize every node of every board is also found with a pair outside of the board.", "quantifier": "all pairs of usize, every index type, every SquareGraph of every shape and size, both build modes", "why_tests_cant": "tests use small numbers and the default index type; the claim is about all pairs and all index types", "anchors": ["src/lattice_abstract/shapes.rs: From<(usize, usize)> for Offset", "src/lattice_abstract/square.rs: PartialEq<(usize, usize)> for SquareOffset", "src/square/index.rs: From<(usize, usize)> for NodeIndex, PartialEq<(usize, usize)>"]}
{"id": "C102", "title": "Axes and edge ids of LatticeGraph sort by index", "statement": "The derived order of every axis and direction type is that of its indices, and only equal ones compare equal. Where nodes sort like their indices (C86), two edges of edge_references compare by their id (coordinate, axis) as their places in edge_references do. On axial hexagonal boards without loop this holds exactly for boards with no column, boards with at most two rows of the odd convention or one row of the even convention (rows are columns for the q shapes), and undirected boards of the even convention one column wide with at most three rows.", "quantifier": "all axis and direction types of the crate, every shape, size and built graph with data of any type, both build modes", "why_tests_cant": "no test compares ids of edges; the claim is about all pairs of edges of all boards", "anchors": ["src/lattice_abstract/square.rs: SquareAxis, DirectedSquareAxis, DirectedSquareDiagonalAxis", "src/hex/shapes/mod.rs: AxisR, AxisQ, AxisDR, AxisDQ", "src/lattice_abstract/edges.rs: EdgeReference::id"]}
{"id": "C103", "title": "floyd_warshall finds the least price between all nodes", "statement": "petgraph's floyd_warshall on a LatticeGraph whose edges cost something from zero to the largest price the type holds gives, for exactly the pairs of nodes of the board, the least price of going along the edges (both ways unless the axis is directed), or the largest value of the type if there is no way below it. This agrees with the searches that go along edges, and with unit prices with the distance of the lattice. On every shape of the crate it is known whether the call ends so or panics because an edge leads off the board.", "quantifier": "every shape and size, every built graph with data of any type, all non-negative prices, all bounds of the price type, both build modes", "why_tests_cant": "no test calls it; the claim compares its table with all ways between all pairs of nodes of all boards", "anchors": ["src/lattice_abstract/mod.rs: NodeCount, NodeIndexable, NodeCompactIndexable, GraphProp", "src/lattice_abstract/nodes.rs: IntoNodeIdentifiers", "src/lattice_abstract/edges.rs: IntoEdgeReferences"]}
{"id": "C104", "title": "SquareGraph: floyd_warshall finds the least price between all nodes", "statement": "petgraph's floyd_warshall on a SquareGraph whose edges cost something from zero to the largest price the type holds gives, for exactly the pairs of nodes of the board, the least price of going along the edges either way, or the largest value of the type if there is no way below it; with unit prices that is the distance on the board. True on every board with a row. On a board without rows and with two columns or more it panics, since node_identifiers yields nodes that are not there.", "quantifier": "every loop shape, index type and size, every built graph with data of any type, all non-negative prices, all bounds of the price type, both build modes", "why_tests_cant": "no test calls it; the claim compares its table with all ways between all pairs of nodes of all boards", "anchors": ["src/square/mod.rs: NodeCount, NodeIndexable, GraphProp, IntoNodeIdentifiers, IntoEdgeReferences", "src/square/edges.rs"]}
{"id": "C105", "title": "Debug assertions catch misuse of the unchecked functions", "statement": "If to_offset refuses a coordinate or move_coord a move, the unchecked functions given the same arguments panic with debug assertions; without them they are undefined behaviour. True of move_coord_unchecked of every shape but the axial ones without loop, which return a coordinate outside of the board. False of the unchecked weights: a coordinate outside of the board never yields a weight, but is undefined behaviour also with debug assertions on most shapes, and the weight of an edge over the rim is undefined behaviour in both builds on every shape.", "quantifier": "every shape and size, every built graph with data of any type, all coordinates, axes and directions, both build modes", "why_tests_cant": "undefined behaviour cannot be asserted in a test; the claim ranges over all arguments outside of the contract", "anchors": ["src/lib.rs: unreachable_debug_checked", "src/lattice_abstract/shapes.rs: to_offset_unchecked, move_coord_unchecked", "src/lattice_abstract/mod.rs: node_weight_unchecked, edge_weight_unchecked and the mutable forms", "src/hex/axial_based/shapes.rs: move_coord_unchecked, to_offset_unchecked"]}
{"id": "C106", "title": "depth_first_search tells its visitor the events of a depth first search", "statement": "petgraph's depth_first_search on a LatticeGraph, from any nodes of the board, tells every visitor the same events up to the one it breaks off on. Each node that the starting nodes lead to is discovered once, either as the first starting node not yet discovered or right after a tree edge to it, and finished once, innermost first, after its neighbours have been looked at in the order of neighbors; each edge is called a tree, back or cross/forward edge by whether its end is new, still open or finished; the times count from zero. is_cyclic_directed says true exactly if some node leads back to itself, which on boards with right moves is so as soon as there is an edge. On the shapes of which an edge leads off the board (C99) a visitor is also told of a tree edge to something that is no node and is never discovered.", "quantifier": "every shape and size, every built graph with data of any type, all starting nodes, all visitors, both build modes", "why_tests_cant": "no test runs such a search; the claim is about the whole order of events on all boards and for all visitors", "anchors": ["src/lattice_abstract/neighbors.rs: Neighbors", "src/lattice_abstract/mod.rs: VisMap, Visitable", "src/lattice_abstract/nodes.rs: IntoNodeIdentifiers"]}
{"id": "C107", "title": "SquareGraph: depth_first_search tells its visitor the events of a depth first search", "statement": "petgraph's depth_first_search on a SquareGraph, from any nodes of the board, tells every visitor the events of a depth first search as described in C106, and is_cyclic_directed says true exactly if the board has an edge. On a board of two or more columns without rows, starting it from node_identifiers panics.", "quantifier": "every loop shape, index type and size, every built graph with data of any type, all starting nodes, all visitors, both build modes", "why_tests_cant": "no test runs such a search; the claim is about the whole order of events on all boards and for all visitors", "anchors": ["src/square/neighbors.rs: Neighbors", "src/square/mod.rs: VisMap, Visitable", "src/square/nodes.rs: IntoNodeIdentifiers"]}
{"id": "C108", "title": "toposort fails exactly on the boards that have an edge", "statement": "petgraph's toposort on a LatticeGraph gives every node once if no edge leads from a node to a node of the board, and otherwise Err(Cycle(n)) with a node n that an edge leads to. On boards with right moves n is then on a cycle and a success means that there are no edges at all. But on the shapes with edges that lead only one way this is wrong: as neighbors_directed ignores its direction, toposort tells of a cycle on a board where is_cyclic_directed rightly finds none.", "quantifier": "every shape and size, every built graph with data of any type, both build modes", "why_tests_cant": "no test runs toposort; the claim is about all boards, and the wrong answer takes a shape whose moves are not mutual", "anchors": ["src/lattice_abstract/neighbors.rs: IntoNeighborsDirected", "src/lattice_abstract/mod.rs: VisitMap, Visitable", "src/lattice_abstract/nodes.rs: IntoNodeIdentifiers"]}
{"id": "C109", "title": "SquareGraph: toposort fails exactly on the boards that have an edge", "statement": "petgraph's toposort on a SquareGraph with at least one row gives every node once if the board has no edge, and otherwise Err(Cycle(n)) with a node n on a cycle. On a board of two or more columns without rows it panics.", "quantifier": "every loop shape, index type and size, every built graph with data of any type, both build modes", "why_tests_cant": "no test runs toposort; the claim is about all boards", "anchors": ["src/square/neighbors.rs: IntoNeighborsDirected", "src/square/mod.rs: VisitMap, Visitable", "src/square/nodes.rs: IntoNodeIdentifiers"]}
{"id": "C110", "title": "DoubleCoordShapeBase::move_coord takes exactly the steps that stay inside the limits", "statement": "The public trait method DoubleCoordShapeBase::move_coord(coord, dir, h_max, v_max), for OddR as well as for OddQ (which no Shape uses), answers for a coordinate inside the limits with the coordinate one step on in the doubled grid if that is inside the limits too, and with None otherwise; the step in the opposite direction leads back. This holds for limits below usize::MAX; at usize::MAX the steps of two from the last coordinate panic in a debug build and wrap to zero in a release build. Coordinates outside the limits are not checked.", "quantifier": "all limits, coordinates and directions, both build modes", "why_tests_cant": "OddQ's method is not run by any test; six directions over all coordinates and limits", "anchors": ["src/hex/double_coord/shapes.rs: DoubleCoordShapeBase, move_coord_r, move_coord_q"]}
{"id": "C111", "title": "Boards over a base that says it is flat-top", "statement": "IS_FLAT_TOP is false for all bases of the crate, but the traits are public and HexAxialShape has code for flat-top bases. On such a board without loop, to_offset and offset_to_coordinate are inverse to each other between the coordinates on the board and its columns and rows, to_offset refuses all other coordinates, to_offset_unchecked agrees with it on the board, and move_coord takes exactly the steps that stay on the board. With LoopEW this is wrong: move_coord steps off the board and refuses steps on it.", "quantifier": "every base (even or odd), axis type, coordinate type, size, coordinate and direction, both build modes", "why_tests_cant": "no base of the crate or its tests is flat-top, so no test runs the code", "anchors": ["src/hex/axial_based/shapes.rs: HexAxialShape, to_offset, offset_to_coordinate, move_coord", "src/hex/shapes/mod.rs: RQ"]}
{"id": "C112", "title": "petgraph's tarjan_scc finds the strongly connected components of every LatticeGraph whose neighbors stay on the board", "statement": "tarjan_scc asks a graph only for node_identifiers, neighbors, node_bound and to_index, not for reversed neighbours, and so, unlike kosaraju_scc (C100), it is right also where the moves of a shape are not symmetric: every node is in exactly one list, two nodes are in one list just if they lead to each other, and no node leads to a node of a later list. On shapes of which a node lists one off the board it panics in to_index; these are the axial shapes with LoopEW of three rows or more (two or more for EvenR and EvenQ) and the offset columns whose top row is lifted. Where the moves are right there is one list.", "quantifier": "every shape of the crate, every size, all node and edge weights, both build modes", "why_tests_cant": "the result depends on the whole adjacency of the board; no test runs it, and small symmetric boards do not distinguish the two algorithms", "anchors": ["src/lattice_abstract/neighbors.rs: Neighbors", "src/lattice_abstract/nodes.rs: NodeIndexable, IntoNodeIdentifiers", "src/lattice_abstract/shapes.rs: to_index"]}
{"id": "C113", "title": "petgraph's tarjan_scc on SquareGraph", "statement": "On a SquareGraph with at least one row tarjan_scc gives one list with every node once. On one without rows, of two columns or more, it panics, since node_identifiers yields nodes that are not there.", "quantifier": "every loop type, index type and size that the index type holds, all weights, both build modes", "why_tests_cant": "all sizes and loop types", "anchors": ["src/square/nodes.rs: IntoNodeIdentifiers, NodeIndexable", "src/square/neighbors.rs: IntoNeighbors"]}
{"id": "C114", "title": "A user's own Shape and Axis get a correct graph, if they keep to what the traits document", "statement": "shapes.rs offers the traits for lattices of one's own. If the numbering of axes and directions is right, to_offset and offset_to_coordinate are inverse to each other and to_offset is an error off the board, and moves stay on the board and are undone by the opposite direction, then LatticeGraph over this shape stores and returns every weight, numbers and lists the nodes, lists as neighbors just what move_coord gives, is symmetric, gives in edges one reference for each neighbour with the right weight, shares the weight of an undirected edge between its ends, lists every edge once in edge_references with an id of its own, changes one weight per write, keeps a correct visit map, and its unchecked accessors read no missing slot. Coordinates off the board are refused as on the shapes of the crate, and edges on them is undefined behaviour in release builds.", "quantifier": "every shape whatsoever that keeps to the contract, over coordinates that can be read as pairs of numbers; any number of axes, directed or not; all weights, writes and build modes", "why_tests_cant": "it quantifies over implementations of the traits that do not exist yet", "anchors": ["src/lattice_abstract/shapes.rs: Shape, Axis, AxisDirection", "src/lattice_abstract/mod.rs: LatticeGraph", "src/lattice_abstract/edges.rs", "src/lattice_abstract/neighbors.rs", "src/lattice_abstract/nodes.rs", "src/lattice_abstract/mod.rs"]}
{"id": "C115", "title": "Searches and shortest paths on a user's own shape", "statement": "On a LatticeGraph over a shape that keeps to the contract of C114, Bfs and Dfs give the start and every node that can be reached from it once, Bfs in order of distance, and dijkstra ends with the least cost of every node to which a route leads and no cost for any other.", "quantifier": "every shape that keeps to the contract, every start, all costs that are not negative, every priority queue, both build modes", "why_tests_cant": "it quantifies over implementations of the traits that do not exist yet", "anchors": ["src/lattice_abstract/shapes.rs: Shape, Axis", "src/lattice_abstract/mod.rs: Visitable", "src/lattice_abstract/edges.rs: IntoEdges", "src/lattice_abstract/neighbors.rs: IntoNeighbors"]}
{"id": "C116", "title": "A shape written in safe code cannot make edges read memory that was never written", "statement": "Shape is a safe trait, and the documentation of move_coord does not ask that the opposite direction leads back. Whatever move_coord answers for the cells of the board, as long as it stays on the board, traversing the graph is free of undefined behaviour, and the weight that edges shows for a step is the weight of the edge between the two cells.", "quantifier": "every shape that keeps to the rest of the contract of C114, directed or not, every node, all weights, both build modes", "why_tests_cant": "the shapes of the crate that break the rule do so on some boards only, and it quantifies over shapes that do not exist yet", "anchors": ["src/lattice_abstract/shapes.rs: Shape::move_coord", "src/lattice_abstract/edges.rs: Edges, EdgesDirected", "src/lattice_abstract/mod.rs: edge_weight_unchecked_raw"]}
{"id": "C117", "title": "A view that leaves out nodes shows exactly what is left, and searches stay inside it", "statement": "petgraph's NodeFiltered over a LatticeGraph, for any filter of nodes: node_identifiers and neighbors give what the graph gives, without the nodes left out and with nothing from such a node. Bfs and Dfs visit exactly the nodes that can be reached through nodes that are kept, each once, Bfs by distance in the view; has_path_connecting says whether there is such a way. From a start that is left out they visit the start alone.", "quantifier": "every shape of the crate and every shape of a user's that keeps to the contract of C114, every size, every filter, every start, both build modes", "why_tests_cant": "there are more filters than any test can try, and whether a way round the obstacles exists depends on the whole of one", "anchors": ["src/lattice_abstract/neighbors.rs: Neighbors", "src/lattice_abstract/nodes.rs: NodeIndices", "src/lattice_abstract/mod.rs: VisMap"]}
{"id": "C118", "title": "Cheapest ways past obstacles", "statement": "dijkstra over a NodeFiltered LatticeGraph gives every node the least cost of a way through nodes that are kept, and nothing where there is none; astar gives a cheapest such way to a goal, or none exactly if there is none, as long as the estimates do not exceed what such ways cost. The distance of the whole lattice is such an estimate when steps cost at least one. Edges at nodes left out may have any cost.", "quantifier": "every shape of the crate whose moves are undone by the opposite moves and every shape of a user's that keeps to the contract of C114, every filter, all costs of the edges left that are not negative, every priority queue, both build modes", "why_tests_cant": "optimality compares with all ways, of any length, for all filters and costs", "anchors": ["src/lattice_abstract/edges.rs: Edges", "src/lattice_abstract/mod.rs: VisMap"]}
{"id": "C119", "title": "A view that leaves out edges: searches along the edges that pass, there and back", "statement": "petgraph's EdgeFiltered over a LatticeGraph: edges and neighbors give the edges that pass and their targets; Bfs, Dfs, dijkstra and astar use exactly the ways along edges that pass. On an undirected graph a filter that goes by the weight, or by the id, of the edges leaves an undirected graph: every way also leads back for the same cost.", "quantifier": "the shapes of C118, every filter of edge references, all costs of the edges that pass that are not negative, both build modes", "why_tests_cant": "the ids look right from one end of the edge; it takes both ends, for all edges, to see that they differ", "anchors": ["src/lattice_abstract/edges.rs: EdgeReference::id", "src/lattice_abstract/edges.rs: Edges"]}
{"id": "C120", "title": "A view of a SquareGraph that leaves out nodes", "statement": "NodeFiltered over a SquareGraph: nodes, neighbours and edges are those of the graph without the nodes left out; Bfs, Dfs, has_path_connecting, dijkstra and astar answer for exactly the ways through nodes that are kept, also when the estimates are distances on the board without obstacles.", "quantifier": "all loop shapes, sizes and index types, every filter, all costs of the edges left that are not negative, both build modes", "why_tests_cant": "optimality compares with all ways, of any length, for all filters and costs", "anchors": ["src/square/neighbors.rs: Neighbors", "src/square/edges.rs: Edges", "src/square/mod.rs: VisMap"]}
{"id": "C121", "title": "A view of a SquareGraph that leaves out edges", "statement": "EdgeFiltered over a SquareGraph: edges and neighbours are those of the edges that pass, and Bfs, Dfs, dijkstra and astar use exactly the ways along them. Whatever a filter makes of the ids and weights of edges, every way also leads back for the same cost.", "quantifier": "all loop shapes, sizes and index types, every filter of edge references, all costs of the edges that pass that are not negative, both build modes", "why_tests_cant": "it relates the two ends of every edge, on all boards, also where they wrap around", "anchors": ["src/square/edges.rs: Edges", "src/square/edges.rs: EdgeReference"]}
{"id": "C122", "title": "Searching against the edges answers for the ways that lead to the start", "statement": "petgraph's Reversed over a LatticeGraph: the edges of a node are the edges that lead to it, with their weights, and lead to where those come from. Bfs visits exactly the nodes from which the start can be reached, the nearest first; dijkstra gives every node the least cost of a way from it to the start, also when an edge costs something else one way than the other; astar gives a cheapest way from a goal to the start, in reverse. No build panics on a well-formed graph.", "quantifier": "every shape of the crate whose moves are undone by the opposite moves and every shape of a user's that keeps to the contract of C114, directed or not, all costs that are not negative, every priority queue, every start, both build modes", "why_tests_cant": "it relates the answers of two searches over all ways of any length; with costs that are the same in both directions every mistake about who is source and who is target goes unseen", "anchors": ["src/lattice_abstract/edges.rs: edges_directed", "src/lattice_abstract/edges.rs: Edges", "src/lattice_abstract/neighbors.rs: neighbors_directed"]}
{"id": "C123", "title": "Searching along edges in either direction", "statement": "petgraph's UndirectedAdaptor over a LatticeGraph: neighbors lists what neighbors_directed gives for both directions, edges the edges that arrive (turned round) and then those that leave. Bfs and Dfs visit what can be reached, each node once; dijkstra and astar find the least cost of a way along edges that may be taken in either direction, each for the cost it has. No build panics on a well-formed graph.", "quantifier": "the shapes of C122 (the searches by neighbours: every shape of the crate), all costs that are not negative, every priority queue, every start, both build modes", "why_tests_cant": "optimality compares with all ways, of any length and any mix of directions, for all costs", "anchors": ["src/lattice_abstract/edges.rs: edges_directed", "src/lattice_abstract/edges.rs: Edges", "src/lattice_abstract/neighbors.rs: neighbors_directed"]}
{"id": "C124", "title": "Least costs on a LatticeGraph where edges may cost less than nothing", "statement": "petgraph's bellman_ford over a LatticeGraph never panics. It answers that there is a negative cycle exactly when a cycle that costs less than nothing can be reached from the start; otherwise it gives for every node, at its index, the least cost of a way from the start, with predecessors that trace a way of exactly that cost, or says that there is no way. On an undirected graph with weights for costs there is such a cycle exactly when an edge that costs less than nothing can be reached.", "quantifier": "every shape of the crate whose moves are undone by the opposite moves and every shape of a user's that keeps to the contract of C114, directed or not, all integer costs, every start, both build modes", "why_tests_cant": "it compares with all ways and all cycles, of any length, for all costs; that node_count - 1 turns are enough rests on no way needing to visit a node twice", "anchors": ["src/lattice_abstract/nodes.rs: to_index, node_bound, node_count", "src/lattice_abstract/edges.rs: Edges", "src/lattice_abstract/shapes.rs: Shape"]}
{"id": "C125", "title": "Least costs on a SquareGraph where edges may cost less than nothing", "statement": "The same of bellman_ford over a SquareGraph: a negative cycle is reported exactly when one can be reached, which is when an edge that costs less than nothing can be; otherwise the least cost of every node, with predecessors that trace a way of that cost.", "quantifier": "every shape (looped or not), size and index type that hold the board, all integer costs, every start, both build modes", "why_tests_cant": "as C124; an edge seen from its two ends must be the same edge with the same weight everywhere, or a cycle is reported that is not there", "anchors": ["src/square/nodes.rs: to_index, node_bound, node_count", "src/square/edges.rs: Edges"]}
{"id": "C126", "title": "The cost of the k-th cheapest walk on a LatticeGraph", "statement": "petgraph's k_shortest_path over a LatticeGraph ends without a panic. Every cost in the map it gives is that of the k-th cheapest walk from the start to the node, where walks are different if they take different edges at some step and may come back to a node; without a goal, or if the goal is not in the map, nodes are left out only if fewer than k walks lead to them. On an undirected graph, from a node with an edge, no node that can be reached is left out, for any k. For k = 0 the map is empty.", "quantifier": "every shape of the crate whose moves are undone by the opposite moves and every shape of a user's that keeps to the contract of C114, directed or not, all costs that are not negative, every k, start and goal, every priority queue, both build modes", "why_tests_cant": "it ranks infinitely many walks, for all costs and all k; that the map holds the k-th and not another one can not be seen from finitely many walks", "anchors": ["src/lattice_abstract/nodes.rs: to_index, node_count", "src/lattice_abstract/edges.rs: Edges", "src/lattice_abstract/shapes.rs: Shape"]}
{"id": "C127", "title": "The cost of the k-th cheapest walk on a SquareGraph", "statement": "The same of k_shortest_path over a SquareGraph; from a node with an edge the map has, for every k, exactly the nodes that can be reached.", "quantifier": "every shape (looped or not), size and index type that hold the board, all costs that are not negative, every k, start and goal, every priority queue, both build modes", "why_tests_cant": "as C126; on looped sides of two the two edges between the same nodes are two walks", "anchors": ["src/square/nodes.rs: to_index, node_count", "src/square/edges.rs: Edges"]}
{"id": "C128", "title": "The maximal cliques of a LatticeGraph", "statement": "petgraph's maximal_cliques over a LatticeGraph ends without a panic and lists the sets of nodes all joined to each other to which no node can be added: all of them, each once, and nothing else, in whatever order its hash sets are iterated. Whatever nodes are all joined to each other, some set listed holds them all. On boards that do not loop no such set has more than two nodes on square boards, three on hexagonal ones and four on square boards with diagonals.", "quantifier": "every shape of the crate whose moves are undone by the opposite moves and every shape of a user's that keeps to the contract of C114, directed or not, every order of iteration of the sets, both build modes", "why_tests_cant": "the order in which hash sets are iterated changes from run to run and there are too many sets of nodes to look at", "anchors": ["src/lattice_abstract/neighbors.rs: neighbors, is_adjacent", "src/lattice_abstract/nodes.rs: node_identifiers", "src/lattice_abstract/shapes.rs: Shape::is_neighbor"]}
{"id": "C129", "title": "All paths between two nodes of a LatticeGraph that come to no node twice", "statement": "petgraph's all_simple_paths over a LatticeGraph yields, in finitely many calls of next and without a panic, every path from one node to another that comes to no node twice and passes through at least and at most the given numbers of nodes (no upper limit without one): each as many times as it can be gone, so once unless a node is listed twice among the neighbours of another, and nothing else. From a node to itself it yields the ways round, without an upper limit all but those through every node.", "quantifier": "every shape of the crate whose moves are undone by the opposite moves and every shape of a user's that keeps to the contract of C114, directed or not, all pairs of nodes, all limits below usize::MAX, both build modes", "why_tests_cant": "the number of paths grows exponentially with the board", "anchors": ["src/lattice_abstract/neighbors.rs: neighbors_directed", "src/lattice_abstract/nodes.rs: node_count", "src/lattice_abstract/shapes.rs: Shape"]}
{"id": "C130", "title": "All paths between two nodes of a SquareGraph that come to no node twice", "statement": "The same of all_simple_paths over a SquareGraph; on looped sides of two each step between the two nodes can be gone in two ways.", "quantifier": "every shape (looped or not), size and index type that hold the board, all pairs of nodes, all limits below usize::MAX, both build modes", "why_tests_cant": "as C129", "anchors": ["src/square/neighbors.rs: neighbors_directed", "src/square/nodes.rs: node_count"]}
{"id": "C131", "title": "Two nodes of a LatticeGraph are joined at most once", "statement": "Without a loop, no node is its own neighbour, none is listed twice among the neighbours of another, the edges of a node lead to different nodes and at most one edge joins two nodes (one each way if directed). The same holds on boards looped from east to west with three columns or more; with two columns some node is listed twice, with one column each node is its own neighbour. Where nodes are joined at most once, all_simple_paths yields no path twice.", "quantifier": "every shape whose moves follow its geometry, looped or not, directed or not, all sizes, all nodes, both build modes", "why_tests_cant": "all sizes and nodes; the behaviour changes at one and two columns", "anchors": ["src/lattice_abstract/neighbors.rs: neighbors", "src/lattice_abstract/edges.rs: edge_references", "src/hex/offset_based/shapes.rs: LoopEW"]}
{"id": "C132", "title": "Two nodes of a SquareGraph are joined at most once", "statement": "On a SquareGraph a node is its own neighbour exactly if a looped side has length one, and a node is listed twice among the neighbours of another exactly if a looped side has length one or two; otherwise at most one edge joins two nodes and all_simple_paths yields no path twice.", "quantifier": "every shape (looped or not), size and index type that hold the board, all nodes, both build modes", "why_tests_cant": "as C131", "anchors": ["src/square/neighbors.rs: neighbors", "src/square/edges.rs: edge_references"]}
{"id": "C133", "title": "greedy_matching pairs nodes of a LatticeGraph until no two neighbours are left", "statement": "petgraph's greedy_matching returns on every LatticeGraph. The mate of a node is one of its neighbours, other than itself, whose mate it is in turn; of two neighbours at least one has a mate; len is the number of pairs. No other pairing of neighbours has more than twice as many pairs. is_perfect tells whether every node has a mate.", "quantifier": "every sound shape (of the crate or of a user), directed or not, all sizes and weights, both build modes", "why_tests_cant": "all boards and all other pairings; the visit map and the index of every node are involved at each step", "anchors": ["src/lattice_abstract/neighbors.rs: neighbors", "src/lattice_abstract/mod.rs: VisitMap", "src/lattice_abstract/mod.rs: to_index"]}
{"id": "C134", "title": "greedy_matching pairs nodes of a SquareGraph until no two neighbours are left", "statement": "The same on every SquareGraph with at least one row. On a board of two columns or more without rows greedy_matching panics, since node_identifiers yields nodes that are not there.", "quantifier": "every shape (looped or not), size and index type that hold the board, all weights, both build modes", "why_tests_cant": "as C133", "anchors": ["src/square/neighbors.rs: neighbors", "src/square/mod.rs: to_index"]}
{"id": "C135", "title": "Dot writes a LatticeGraph as it is", "statement": "petgraph's Dot of a LatticeGraph lists the nodes numbered from 0 in the order of node_identifiers, each with its weight, and then edges between those numbers: read in the direction of the arrow, or from both ends if the graph is undirected, they are the edges that edges() lists at all nodes, with their weights, each as often as edges() lists it. It says digraph exactly if the graph is directed.", "quantifier": "every shape of the crate whose moves follow its geometry, looped or not, directed or not, all sizes and weights, both build modes", "why_tests_cant": "all boards; node_references, edge_references, to_index and is_directed have to fit together, also where two nodes are joined twice", "anchors": ["src/lattice_abstract/edges.rs: edge_references", "src/lattice_abstract/nodes.rs: node_references", "src/lattice_abstract/mod.rs: EdgeType"]}
{"id": "C136", "title": "Dot writes a SquareGraph as it is", "statement": "The same for SquareGraph, which is undirected, on boards of every size, also without rows.", "quantifier": "every shape (looped or not), size and index type that hold the board, all weights, both build modes", "why_tests_cant": "as C135", "anchors": ["src/square/edges.rs: edge_references", "src/square/nodes.rs: node_references"]}
{"id": "C137", "title": "A depth first search of a LatticeGraph leaves out what its visitor prunes, and nothing else", "statement": "petgraph's depth_first_search on a LatticeGraph with a visitor that may prune: a node whose discovery is pruned is finished at once, without any of its edges; the target of a pruned tree edge is not entered by that edge; every other node is left only when all its neighbours have been looked at, in their order; each start is discovered, no node twice, every discovered node is finished. If the visitor prunes by a fixed rule, the nodes discovered are exactly those that the starts lead to along the steps which the rule leaves. To prune at Finish is a panic.", "quantifier": "every shape of the crate, looped or not, directed or not, all sizes, all visitors (with any state), any starting nodes on the board, both build modes", "why_tests_cant": "all boards and all visitors; it needs neighbors, the visit map and the off board neighbours of some shapes to fit together while whole parts of the board are left out", "anchors": ["src/lattice_abstract/neighbors.rs: neighbors", "src/lattice_abstract/mod.rs: VisitMap"]}
{"id": "C138", "title": "A depth first search of a SquareGraph leaves out what its visitor prunes, and nothing else", "statement": "The same for SquareGraph.", "quantifier": "every shape (looped or not), size and index type that hold the board, all visitors, any starting nodes on the board, both build modes", "why_tests_cant": "as C137", "anchors": ["src/square/neighbors.rs: neighbors", "src/square/mod.rs: VisitMap"]}
{"id": "C139", "title": "dsatur_coloring colours a LatticeGraph properly, and with two colours where two can do", "statement": "petgraph's dsatur_coloring on a LatticeGraph ends without a fault. It gives a colour to each node of the board and to nothing else; two different nodes that are neighbours have different colours; no node could have had an earlier colour; the number returned is one more than the last colour in use (1 for an empty board). It is at most two exactly if the board can be coloured with two colours, so on all boards of squares without loops, and on strips and even rings of other cells.", "quantifier": "every shape of the crate whose board is traversed as drawn, looped or not, directed or not, all sizes, and shapes of users that keep to the contract and have at most eight directions (the part about two colours: the shapes of the crate); every order in which the heap may return entries of equal score; both build modes", "why_tests_cant": "all boards and all ways to break ties; it needs node_identifiers, neighbors, edges, to_index, node_bound and the visit map to agree, and the last part the board to be connected", "anchors": ["src/lattice_abstract/mod.rs: to_index, node_bound, VisitMap", "src/lattice_abstract/neighbors.rs: neighbors", "src/lattice_abstract/edges.rs: edges"]}
{"id": "C140", "title": "dsatur_coloring colours a SquareGraph properly, and with two colours where two can do", "statement": "The same for SquareGraph: at most two colours exactly if two can do, so wherever no looped axis has odd length. On a board without rows (looped vertically) that has two or more columns it panics in a debug build and is undefined behaviour in a release build.", "quantifier": "every shape (looped or not), size and index type that hold the board; every order in which the heap may return entries of equal score; both build modes", "why_tests_cant": "as C139", "anchors": ["src/square/mod.rs: to_index, node_bound, VisitMap", "src/square/neighbors.rs: neighbors", "src/square/edges.rs: edges"]}
