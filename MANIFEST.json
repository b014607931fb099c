{
 "claims": [
  {
   "property": "C01",
   "status": "proved",
   "theorems": [
    "C01_node_weights"
   ],
   "note": "All supported shapes and sizes, both build modes."
  },
  {
   "property": "C02",
   "status": "proved",
   "theorems": [
    "C02_edge_weights"
   ],
   "note": ""
  },
  {
   "property": "C03",
   "status": "proved",
   "theorems": [
    "C03_construction",
    "C03_refusal"
   ],
   "note": ""
  },
  {
   "property": "C04",
   "status": "proved",
   "theorems": [
    "C04_protocol",
    "C04_each_once",
    "C04_stateful"
   ],
   "note": ""
  },
  {
   "property": "C05",
   "status": "proved",
   "theorems": [
    "C05_index",
    "C05_off_board"
   ],
   "note": ""
  },
  {
   "property": "C06",
   "status": "proved",
   "theorems": [
    "C06_node_identifiers"
   ],
   "note": ""
  },
  {
   "property": "C07",
   "status": "proved",
   "theorems": [
    "C07_node_references"
   ],
   "note": ""
  },
  {
   "property": "C08",
   "status": "partial",
   "theorems": [
    "C08_exact_size_partial",
    "C08_node_references_refuted",
    "C08_node_references_hint_partial"
   ],
   "note": "node_identifiers proved; node_references refuted: it has no size_hint, so ExactSizeIterator::len panics."
  },
  {
   "property": "C09",
   "status": "proved",
   "theorems": [
    "C09_neighbors"
   ],
   "note": ""
  },
  {
   "property": "C10",
   "status": "proved",
   "theorems": [
    "C10_symmetric"
   ],
   "note": ""
  },
  {
   "property": "C11",
   "status": "proved",
   "theorems": [
    "C11_is_adjacent"
   ],
   "note": ""
  },
  {
   "property": "C12",
   "status": "proved",
   "theorems": [
    "C12_edges",
    "C12_targets"
   ],
   "note": ""
  },
  {
   "property": "C13",
   "status": "proved",
   "theorems": [
    "C13_shared_weight"
   ],
   "note": ""
  },
  {
   "property": "C14",
   "status": "partial",
   "theorems": [
    "C14_edge_references_partial",
    "C14_edges_partial",
    "C14_incoming_partial",
    "C14_edges_refuted",
    "C14_incoming_refuted",
    "C14_incoming_directed_refuted"
   ],
   "note": "Right for edge_references, forward directions of edges and backward directions of Incoming on undirected graphs; refuted elsewhere with witnesses."
  },
  {
   "property": "C15",
   "status": "proved",
   "theorems": [
    "C15_edge_references",
    "C15_ids",
    "C15_names_once",
    "C15_names_weights"
   ],
   "note": ""
  },
  {
   "property": "C16",
   "status": "proved",
   "theorems": [
    "C16_outgoing"
   ],
   "note": ""
  },
  {
   "property": "C17",
   "status": "proved",
   "theorems": [
    "C17_incoming_undirected"
   ],
   "note": ""
  },
  {
   "property": "C18",
   "status": "partial",
   "theorems": [
    "C18_incoming_directed_partial",
    "C18_sources",
    "C18_debug_refuted"
   ],
   "note": "Release builds proved; in debug builds every call of next with a neighbour panics (proved for all directed shapes)."
  },
  {
   "property": "C19",
   "status": "proved",
   "theorems": [
    "C19_writes",
    "C19_reads"
   ],
   "note": ""
  },
  {
   "property": "C20",
   "status": "proved",
   "theorems": [
    "C20_independent"
   ],
   "note": ""
  },
  {
   "property": "C21",
   "status": "partial",
   "theorems": [
    "C21_total_partial",
    "C21_rectangular",
    "C21_extreme_refuted"
   ],
   "note": "Proved for all coordinates that can be located; the exact condition under which axial shapes panic in debug builds is proved too."
  },
  {
   "property": "C22",
   "status": "partial",
   "theorems": [
    "C22_edges_refuted"
   ],
   "note": "Refuted for every supported shape and off-board coordinate: panic in debug, undefined behaviour in release."
  },
  {
   "property": "C23",
   "status": "proved",
   "theorems": [
    "C23_visit_map"
   ],
   "note": ""
  },
  {
   "property": "C24",
   "status": "partial",
   "theorems": [
    "C24_unvisit_partial",
    "C24_unvisit_refuted",
    "C24_square_unvisit_partial"
   ],
   "note": "Exact answer proved (true for every board coordinate); contract refuted by a witness."
  },
  {
   "property": "C25",
   "status": "proved",
   "theorems": [
    "C25_axis_index",
    "C25_unchecked_index",
    "C25_axis_to_direction",
    "C25_direction_to_axis",
    "C25_directed_backward"
   ],
   "note": ""
  },
  {
   "property": "C26",
   "status": "proved",
   "theorems": [
    "C26_back",
    "C26_axis_back",
    "C26_moves"
   ],
   "note": ""
  },
  {
   "property": "C27",
   "status": "proved",
   "theorems": [
    "C27_moves",
    "C27_graphs"
   ],
   "note": ""
  },
  {
   "property": "C28",
   "status": "proved",
   "theorems": [
    "C28_loop"
   ],
   "note": ""
  },
  {
   "property": "C29",
   "status": "partial",
   "theorems": [
    "C29_east_refuted",
    "C29_northeast_refuted",
    "C29_moves_partial",
    "C29_moves_q_partial",
    "C29_around_partial"
   ],
   "note": "West wraps everywhere; east refuted: in rows y with y+co >= 2 the last cell's east move leaves the board. Exact result of every move proved for all sizes."
  },
  {
   "property": "C30",
   "status": "partial",
   "theorems": [
    "C30_layout_refuted",
    "C30_cell_refuted",
    "C30_small_partial",
    "C30_actual_partial"
   ],
   "note": "Refuted for every board beyond two columns and rows (OddQ) or one (EvenQ); the layout really used is proved."
  },
  {
   "property": "C31",
   "status": "partial",
   "theorems": [
    "C31_reversible_refuted",
    "C31_board_refuted",
    "C31_edges_refuted",
    "C31_complete_partial",
    "C31_vertical_partial",
    "C31_symmetric_partial",
    "C31_column_partial"
   ],
   "note": "Refuted for every board of two or more columns; the exact class of boards on which edges() is undefined behaviour is proved, and vertical moves, symmetry and single columns are right."
  },
  {
   "property": "C32",
   "status": "partial",
   "theorems": [
    "C32_vertical_refuted",
    "C32_reversible_refuted",
    "C32_symmetric_partial"
   ],
   "note": "Refuted for all boards: N and S move along the row; symmetry of adjacency and staying on the board proved."
  },
  {
   "property": "C33",
   "status": "partial",
   "theorems": [
    "C33_alias_refuted",
    "C33_adjacency_refuted",
    "C33_edges_refuted",
    "C33_nodes_partial",
    "C33_moves_partial"
   ],
   "note": "Refuted: aliased coordinates, one-way moves in the right half, undefined behaviour of edges() on every board of two or more nodes. Injectivity on same-parity coordinates and the moves that are right are proved."
  },
  {
   "property": "C34",
   "status": "partial",
   "theorems": [
    "C34_events",
    "C34_refuted",
    "C34_unwritten_refuted"
   ],
   "note": "Every edge type that needs drop refutes it, on every shape: drop_in_place is followed by the drop of the moved-out local, so existing edges are dropped twice and never-written slots once. C34_events gives the exact sequence."
  },
  {
   "property": "C35",
   "status": "partial",
   "theorems": [
    "C35_compare_nodes_partial",
    "C35_compare_sizes_partial",
    "C35_zero_sized",
    "C35_compare_edges",
    "C35_clone_partial",
    "C35_clone_refuted",
    "C35_compare_refuted",
    "C35_empty"
   ],
   "note": "Clone is the identity for Copy edge types; for other edge types that occupy memory clone and == read never-written slots (undefined behaviour), unless nodes or sizes differ already. With zero-sized edge weights both are well defined and exact."
  },
  {
   "property": "C36",
   "status": "proved",
   "theorems": [
    "C36_unchecked_shape",
    "C36_unchecked_graph"
   ],
   "note": ""
  },
  {
   "property": "C37",
   "status": "partial",
   "theorems": [
    "C37_inverse",
    "C37_move_dq",
    "C37_move_dr_refuted"
   ],
   "note": "Inverses and AxisDQ proved; AxisDR is rotated by one direction for every direction and cell."
  },
  {
   "property": "C38",
   "status": "partial",
   "theorems": [
    "C38_fits",
    "C38_too_large_refuted"
   ],
   "note": "Boards that fit with one cell around: same coordinates, moves and arrays as HexAxial. Larger boards are undefined behaviour in release builds (and a panic only in debug builds)."
  },
  {
   "property": "C39",
   "status": "partial",
   "theorems": [
    "C39_neighbors",
    "C39_edges",
    "C39_incoming_directed",
    "C39_edge_references",
    "C39_overflow_refuted"
   ],
   "note": "The size hint of edge_references for boards of fewer than 2^64 directions; C39_overflow_refuted says what it is on all others."
  },
  {
   "property": "C40",
   "status": "proved",
   "theorems": [
    "C40_new_with",
    "C40_calls",
    "C40_refuses",
    "C40_built",
    "C40_new",
    "C40_new_edge_graph"
   ],
   "note": "All markers, index types, closures with state, both modes; refusal (panic) proved for every other size."
  },
  {
   "property": "C41",
   "status": "proved",
   "theorems": [
    "C41_node_weights",
    "C41_edge_weights"
   ],
   "note": ""
  },
  {
   "property": "C42",
   "status": "proved",
   "theorems": [
    "C42_bijection"
   ],
   "note": ""
  },
  {
   "property": "C43",
   "status": "partial",
   "theorems": [
    "C43_count",
    "C43_identifiers_partial",
    "C43_order",
    "C43_references",
    "C43_no_rows_refuted",
    "C43_refuted"
   ],
   "note": "Right for boards with rows; refuted for boards without rows, which looped markers allow: the exact bogus identifiers are proved."
  },
  {
   "property": "C44",
   "status": "proved",
   "theorems": [
    "C44_neighbors"
   ],
   "note": ""
  },
  {
   "property": "C45",
   "status": "proved",
   "theorems": [
    "C45_edges",
    "C45_targets",
    "C45_weights",
    "C45_back"
   ],
   "note": ""
  },
  {
   "property": "C46",
   "status": "proved",
   "theorems": [
    "C46_edge_references",
    "C46_each",
    "C46_once",
    "C46_count"
   ],
   "note": ""
  },
  {
   "property": "C47",
   "status": "partial",
   "theorems": [
    "C47_partial",
    "C47_wrap_refuted",
    "C47_refuted"
   ],
   "note": "Right except for a forward step over the rim of a looped side of length >= 2, where the functions report the next edge: proved for all such cases."
  },
  {
   "property": "C48",
   "status": "partial",
   "theorems": [
    "C48_partial",
    "C48_refuted",
    "C48_off_board_refuted"
   ],
   "note": "Safe for every node of the board; refuted for other node indices."
  },
  {
   "property": "C49",
   "status": "proved",
   "theorems": [
    "C49_metric",
    "C49_shortest_path"
   ],
   "note": ""
  },
  {
   "property": "C50",
   "status": "proved",
   "theorems": [
    "C50_visit_map",
    "C50_off_board"
   ],
   "note": ""
  },
  {
   "property": "C51",
   "status": "proved",
   "theorems": [
    "C51_writes"
   ],
   "note": ""
  },
  {
   "property": "C52",
   "status": "proved",
   "theorems": [
    "C52_weights",
    "C52_neighbors",
    "C52_edges"
   ],
   "note": ""
  },
  {
   "property": "C53",
   "status": "proved",
   "theorems": [
    "C53_connected",
    "C53_square_graph"
   ],
   "note": ""
  },
  {
   "property": "C54",
   "status": "proved",
   "theorems": [
    "C54_total",
    "C54_empty",
    "C54_per_axis"
   ],
   "note": ""
  },
  {
   "property": "C55",
   "status": "proved",
   "theorems": [
    "C55_shapes",
    "C55_graphs",
    "C55_edges"
   ],
   "note": ""
  },
  {
   "property": "C56",
   "status": "partial",
   "theorems": [
    "C56_offset_partial",
    "C56_offset_loop_partial",
    "C56_double_partial",
    "C56_axial_loop_partial",
    "C56_columns_partial",
    "C56_columns_loop_partial",
    "C56_neighbors_refuted",
    "C56_square_partial",
    "C56_axial_partial"
   ],
   "note": "False for the code: on every non-empty board some off-board coordinate has a node as neighbour. What is answered instead is proved exactly for every shape: square, diagonal, axial, double and offset boards, each with and without loop."
  },
  {
   "property": "C57",
   "status": "partial",
   "theorems": [
    "C57_loop_refuted",
    "C57_stuck_refuted",
    "C57_terminates_partial",
    "C57_terminates_q_partial"
   ],
   "note": "Terminates for every board with a column from every isize coordinate; diverges on boards without columns."
  },
  {
   "property": "C58",
   "status": "partial",
   "theorems": [
    "C58_partial",
    "C58_edge_references",
    "C58_refuted",
    "C58_horizontal_refuted",
    "C58_vertical_refuted"
   ],
   "note": "C58_partial: safe for arrays of the same size, and edge_references for any edge arrays. Refuted in general: on every board, an exchange that loses an edge makes edges() read out of bounds."
  },
  {
   "property": "C59",
   "status": "partial",
   "theorems": [
    "C59_partial",
    "C59_refuted",
    "C59_looped_refuted"
   ],
   "note": "C59_partial gives the exact relation to the shortest path; admissibility fails on every board with three or more positions around a loop."
  },
  {
   "property": "C60",
   "status": "partial",
   "theorems": [
    "C60_refuted",
    "C60_duplicates_refuted"
   ],
   "note": "Refuted: any size is accepted, and identifiers are distinct exactly when the board fits; for boards that fit see C42, C43."
  },
  {
   "property": "C61",
   "status": "partial",
   "theorems": [
    "C61_refuted",
    "C61_off_board_refuted"
   ],
   "note": "Refuted for every position outside every board; for nodes of the board see C45."
  },
  {
   "property": "C62",
   "status": "partial",
   "theorems": [
    "C62_refuted",
    "C62_off_board_refuted"
   ],
   "note": "Refuted for every position outside every board but the origin of an empty one; for nodes of the board see C44."
  },
  {
   "property": "C63",
   "status": "proved",
   "theorems": [
    "C63_shortest",
    "C63_every_shape"
   ],
   "note": ""
  },
  {
   "property": "C64",
   "status": "proved",
   "theorems": [
    "C64_bfs"
   ],
   "note": ""
  },
  {
   "property": "C65",
   "status": "proved",
   "theorems": [
    "C65_dfs"
   ],
   "note": ""
  },
  {
   "property": "C66",
   "status": "proved",
   "theorems": [
    "C66_square_searches"
   ],
   "note": ""
  },
  {
   "property": "C67",
   "status": "proved",
   "theorems": [
    "C67_square_shortest"
   ],
   "note": ""
  },
  {
   "property": "C68",
   "status": "proved",
   "theorems": [
    "C68_assume_init",
    "C68_writes",
    "C68_reachable"
   ],
   "note": ""
  },
  {
   "property": "C69",
   "status": "proved",
   "theorems": [
    "C69_panic",
    "C69_no_panic"
   ],
   "note": ""
  },
  {
   "property": "C70",
   "status": "proved",
   "theorems": [
    "C70_edge_of_direction",
    "C70_rim",
    "C70_steps",
    "C70_pairs"
   ],
   "note": "All markers, index types and sizes."
  },
  {
   "property": "C71",
   "status": "proved",
   "theorems": [
    "C71_accepts",
    "C71_checks"
   ],
   "note": "All markers and array sizes below 2^63 (an allocation is never larger)."
  },
  {
   "property": "C72",
   "status": "proved",
   "theorems": [
    "C72_finds",
    "C72_cheapest",
    "C72_close",
    "C72_distance"
   ],
   "note": "Every shape with a lattice (Supported). petgraph's algorithm is transcribed with integer costs that do not overflow; any priority queue."
  },
  {
   "property": "C73",
   "status": "proved",
   "theorems": [
    "C73_finds",
    "C73_cheapest",
    "C73_close",
    "C73_distance"
   ],
   "note": "All markers, index types and sizes."
  },
  {
   "property": "C74",
   "status": "partial",
   "theorems": [
    "C74_partial",
    "C74_bound_partial",
    "C74_refuted",
    "C74_columns_refuted",
    "C74_weights_refuted",
    "C74_weights_columns_refuted"
   ],
   "note": "Proved without loops. Refuted with unit costs for every board with loops of at least five nodes and, with one step of cost two, of at least four, every row or column. C74_bound_partial: on every board, how much too dear the path may be; it is a cheapest one where looped sides are at most two. C73_distance has the estimate that works with loops."
  },
  {
   "property": "C75",
   "status": "proved",
   "theorems": [
    "C75_edges",
    "C75_neighbors",
    "C75_count",
    "C75_directed"
   ],
   "note": "All Supported shapes; directed ones also where moves cannot be undone."
  },
  {
   "property": "C76",
   "status": "proved",
   "theorems": [
    "C76_edges",
    "C76_count"
   ],
   "note": "All markers, index types and sizes with at least one row (without rows node_identifiers makes up nodes, C43)."
  },
  {
   "property": "C77",
   "status": "partial",
   "theorems": [
    "C77_shape_partial",
    "C77_edge_sizes_refuted",
    "C77_new",
    "C77_reads",
    "C77_writes",
    "C77_iterators"
   ],
   "note": "Everything but the two deprecated edge size methods, for which it is refuted; graphs are compared operation by operation."
  },
  {
   "property": "C78",
   "status": "partial",
   "theorems": [
    "C78_release",
    "C78_debug_partial",
    "C78_debug_refuted"
   ],
   "note": "Undefined behaviour without debug assertions for every axis type; the panic with them for all but two axis types, for which it is refuted."
  },
  {
   "property": "C79",
   "status": "partial",
   "theorems": [
    "C79_directed",
    "C79_always",
    "C79_undirected_refuted",
    "C79_generic"
   ],
   "note": "Proved for directed axes and for Direction<T>; refuted for every undirected axis type."
  },
  {
   "property": "C80",
   "status": "proved",
   "theorems": [
    "C80_all",
    "C80_goal",
    "C80_distance"
   ],
   "note": "Every shape with a lattice (Supported). petgraph's algorithm is transcribed with integer costs that do not overflow; any priority queue."
  },
  {
   "property": "C81",
   "status": "proved",
   "theorems": [
    "C81_all",
    "C81_goal",
    "C81_distance"
   ],
   "note": "All markers, index types and sizes; as C80."
  },
  {
   "property": "C82",
   "status": "proved",
   "theorems": [
    "C82_components",
    "C82_connected",
    "C82_other_shapes",
    "C82_off_board",
    "C82_leaky",
    "C82_columns",
    "C82_double",
    "C82_pieces",
    "C82_every_shape"
   ],
   "note": "petgraph's algorithm is transcribed over any union-find structure that keeps its contract (UFOK). C82_pieces gives the answer, count or panic, on every shape of the crate by the table Parts (total by C82_every_shape)."
  },
  {
   "property": "C83",
   "status": "proved",
   "theorems": [
    "C83_connected"
   ],
   "note": "All markers, index types and sizes."
  },
  {
   "property": "C84",
   "status": "proved",
   "theorems": [
    "C84_forest",
    "C84_tree",
    "C84_overflow",
    "C84_whole",
    "C84_off_board"
   ],
   "note": "petgraph's algorithm is transcribed with integer weights, any union-find structure and any priority queue. Minimal among choices of as few edges; among all choices if no weight is negative. On boards of 2^64 directions or more the call panics with debug assertions (C84_overflow). C84_off_board is the panic where an edge leads off the board."
  },
  {
   "property": "C85",
   "status": "proved",
   "theorems": [
    "C85_tree"
   ],
   "note": "All markers, index types and sizes; as C84."
  },
  {
   "property": "C86",
   "status": "proved",
   "theorems": [
    "C86_rect",
    "C86_axial",
    "C86_double",
    "C86_layouts"
   ],
   "note": "Exact: equivalences for the axial and doubled layouts, with C86_layouts showing that there are no others. The order of hex2d::Coordinate itself is of another crate."
  },
  {
   "property": "C87",
   "status": "proved",
   "theorems": [
    "C87_nodes",
    "C87_edges"
   ],
   "note": "All markers, sizes and index types."
  },
  {
   "property": "C88",
   "status": "proved",
   "theorems": [
    "C88_colours",
    "C88_boards",
    "C88_every"
   ],
   "note": "petgraph's algorithm is transcribed. C88_boards gives the answer for every supported shape by the table Chequered, which C88_every shows to be total."
  },
  {
   "property": "C89",
   "status": "proved",
   "theorems": [
    "C89_colours"
   ],
   "note": "All markers, index types and sizes."
  },
  {
   "property": "C90",
   "status": "proved",
   "theorems": [
    "C90_cycles",
    "C90_boards",
    "C90_every",
    "C90_whole",
    "C90_rings",
    "C90_rings_every"
   ],
   "note": "petgraph's algorithm is transcribed over any union-find structure that keeps its contract. C90_boards gives the answer for every supported shape by the table Cyclic (total by C90_every). C90_rings does so for the other shapes whose edges end on the board (table Ringed, total by C90_rings_every)."
  },
  {
   "property": "C91",
   "status": "proved",
   "theorems": [
    "C91_cycles"
   ],
   "note": "All markers, index types and sizes."
  },
  {
   "property": "C92",
   "status": "proved",
   "theorems": [
    "C92_path",
    "C92_post_order"
   ],
   "note": "petgraph's algorithms are transcribed."
  },
  {
   "property": "C93",
   "status": "proved",
   "theorems": [
    "C93_path",
    "C93_post_order"
   ],
   "note": "All markers, index types and sizes."
  },
  {
   "property": "C94",
   "status": "partial",
   "theorems": [
    "C94_hash_refuted",
    "C94_zero_sized_partial"
   ],
   "note": "Refuted for all boards with a cell and edge weights that occupy memory; proved for zero-sized edge weights."
  },
  {
   "property": "C95",
   "status": "proved",
   "theorems": [
    "C95_new",
    "C95_default_shape",
    "C95_directed_default_shape"
   ],
   "note": "The const-size shapes have the shape of their size as the default, which is the shape of the model."
  },
  {
   "property": "C96",
   "status": "proved",
   "theorems": [
    "C96_panic",
    "C96_no_panic"
   ],
   "note": "All markers, index types and sizes; drop order is computed in the model, the theorem states the multiset."
  },
  {
   "property": "C97",
   "status": "partial",
   "theorems": [
    "C97_debug_refuted",
    "C97_zero_sized_partial"
   ],
   "note": "Refuted for all boards with a cell and edge weights that occupy memory; proved for zero-sized edge weights."
  },
  {
   "property": "C98",
   "status": "proved",
   "theorems": [
    "C98_bfs",
    "C98_dfs",
    "C98_path",
    "C98_post_order"
   ],
   "note": "petgraph's Bfs, Dfs, DfsPostOrder and has_path_connecting are transcribed (Traverse.v, Clients.v)."
  },
  {
   "property": "C99",
   "status": "proved",
   "theorems": [
    "C99_every_shape",
    "C99_safe",
    "C99_fault",
    "C99_dijkstra",
    "C99_dijkstra_ok"
   ],
   "note": "Enclosed, Leaky and Untraversable together are all shapes of the crate (C99_every_shape). dijkstra is transcribed from petgraph (Dijkstra.v)."
  },
  {
   "property": "C100",
   "status": "proved",
   "theorems": [
    "C100_components",
    "C100_connected",
    "C100_square",
    "C100_no_rows",
    "C100_double"
   ],
   "note": "kosaraju_scc is transcribed from petgraph (Scc.v)."
  },
  {
   "property": "C101",
   "status": "partial",
   "theorems": [
    "C101_offset_partial",
    "C101_index_partial",
    "C101_weight_partial",
    "C101_refuted"
   ],
   "note": "False for NodeIndex with an index type narrower than usize (the numbers are truncated); exact condition proved, refuted for every board."
  },
  {
   "property": "C102",
   "status": "proved",
   "theorems": [
    "C102_axes",
    "C102_every",
    "C102_edges",
    "C102_axial"
   ],
   "note": "Ordered boards in general; axial boards without loop exactly. Doubled boards of three or more rows are covered by the general theorem only."
  },
  {
   "property": "C103",
   "status": "proved",
   "theorems": [
    "C103_prices",
    "C103_off_board",
    "C103_every_shape",
    "C103_dijkstra",
    "C103_distance"
   ],
   "note": "Prices are integers from zero to the largest value of their type; which of two parallel edges counts is left open (both published versions)."
  },
  {
   "property": "C104",
   "status": "partial",
   "theorems": [
    "C104_prices_partial",
    "C104_dijkstra",
    "C104_distance",
    "C104_no_rows",
    "C104_refuted"
   ],
   "note": "Boards without rows: exactly which panic (C104_no_rows), witness C104_refuted."
  },
  {
   "property": "C105",
   "status": "partial",
   "theorems": [
    "C105_move_partial",
    "C105_move_axial",
    "C105_offset",
    "C105_off_board",
    "C105_no_edge",
    "C105_refuted"
   ],
   "note": "False in part: which functions of which shapes are checked in debug builds is stated exactly for moves; witnesses C105_refuted."
  },
  {
   "property": "C106",
   "status": "proved",
   "theorems": [
    "C106_events",
    "C106_all_nodes",
    "C106_cyclic",
    "C106_edge",
    "C106_leaky"
   ],
   "note": "depth_first_search is transcribed from petgraph (DfsEvents.v); visitors that prune are left out."
  },
  {
   "property": "C107",
   "status": "proved",
   "theorems": [
    "C107_events",
    "C107_all_nodes",
    "C107_edge",
    "C107_no_rows"
   ],
   "note": "As C106; boards without rows: C107_no_rows."
  },
  {
   "property": "C108",
   "status": "partial",
   "theorems": [
    "C108_toposort",
    "C108_cycle",
    "C108_cycle_refuted"
   ],
   "note": "toposort is transcribed from petgraph (Topo.v). C108_cycle_refuted: it tells of a cycle where is_cyclic_directed finds none."
  },
  {
   "property": "C109",
   "status": "proved",
   "theorems": [
    "C109_toposort",
    "C109_no_rows"
   ],
   "note": "As C108; boards without rows: C109_no_rows."
  },
  {
   "property": "C110",
   "status": "proved",
   "theorems": [
    "C110_rows",
    "C110_columns",
    "C110_back",
    "C110_overflow"
   ],
   "note": "The limits' extreme is C110_overflow; coordinates outside the limits: C110_outside."
  },
  {
   "property": "C111",
   "status": "partial",
   "theorems": [
    "C111_offset",
    "C111_unchecked",
    "C111_coordinate",
    "C111_move",
    "C111_loop_refuted"
   ],
   "note": "C111_loop_refuted: with LoopEW the moves are wrong for flat-top bases."
  },
  {
   "property": "C112",
   "status": "proved",
   "theorems": [
    "C112_components",
    "C112_where",
    "C112_connected"
   ],
   "note": "C112_where names the shapes on which it panics."
  },
  {
   "property": "C113",
   "status": "proved",
   "theorems": [
    "C113_square",
    "C113_no_rows"
   ],
   "note": "C113_no_rows: boards without rows."
  },
  {
   "property": "C114",
   "status": "proved",
   "theorems": [
    "C114_weights",
    "C114_calls",
    "C114_nodes",
    "C114_neighbors",
    "C114_edges",
    "C114_incoming",
    "C114_shared",
    "C114_edge_references",
    "C114_writes",
    "C114_unchecked",
    "C114_off_board",
    "C114_visit_map"
   ],
   "note": "The contract is ShapeContract in Spec19.v; C114_sizes shows three shapes of every size that meet it."
  },
  {
   "property": "C115",
   "status": "proved",
   "theorems": [
    "C115_bfs",
    "C115_dfs",
    "C115_dijkstra"
   ],
   "note": ""
  },
  {
   "property": "C116",
   "status": "partial",
   "theorems": [
    "C116_difference",
    "C116_rest_partial",
    "C116_edges_partial",
    "C116_edges_fault",
    "C116_incoming",
    "C116_directed",
    "C116_refuted",
    "C116_directed_refuted",
    "C116_shared_refuted"
   ],
   "note": "False: steps that are not undone read never-written slots (C116_refuted, C116_directed_refuted) or the weight of another edge (C116_shared_refuted). The exact condition is proved for every shape."
  },
  {
   "property": "C117",
   "status": "proved",
   "theorems": [
    "C117_nodes",
    "C117_neighbors",
    "C117_bfs",
    "C117_dfs",
    "C117_path"
   ],
   "note": "Every shape of the crate and every user shape that keeps to the contract. petgraph's adaptor is transcribed in Filtered.v; the filter is a pure function."
  },
  {
   "property": "C118",
   "status": "proved",
   "theorems": [
    "C118_edges",
    "C118_dijkstra",
    "C118_blocked",
    "C118_astar",
    "C118_distance"
   ],
   "note": "Includes that the distance of the lattice without obstacles may serve as the estimate, and what happens from a blocked start."
  },
  {
   "property": "C119",
   "status": "partial",
   "theorems": [
    "C119_lists",
    "C119_bfs",
    "C119_dfs",
    "C119_dijkstra",
    "C119_astar",
    "C119_back",
    "C119_id_refuted"
   ],
   "note": "Searches and the way back by weight are proved; the way back by id is false on every undirected shape of the crate (C119_id_refuted): the id of an edge seen from its far end is another one."
  },
  {
   "property": "C120",
   "status": "proved",
   "theorems": [
    "C120_nodes",
    "C120_neighbors",
    "C120_edges",
    "C120_bfs",
    "C120_dfs",
    "C120_path",
    "C120_dijkstra",
    "C120_blocked",
    "C120_astar",
    "C120_distance"
   ],
   "note": "node_identifiers for boards with at least one row (without rows it is wrong, C43)."
  },
  {
   "property": "C121",
   "status": "proved",
   "theorems": [
    "C121_lists",
    "C121_bfs",
    "C121_dfs",
    "C121_dijkstra",
    "C121_astar",
    "C121_back"
   ],
   "note": "Ids and weights are the same from both ends, so filters by them leave the way back open."
  },
  {
   "property": "C122",
   "status": "partial",
   "theorems": [
    "C122_edges",
    "C122_bfs",
    "C122_dijkstra",
    "C122_astar",
    "C122_debug_refuted"
   ],
   "note": "Proved in release builds and for undirected graphs; debug builds of directed graphs panic as soon as the reversed view meets a node with a neighbour (C122_debug_refuted)."
  },
  {
   "property": "C123",
   "status": "partial",
   "theorems": [
    "C123_neighbors",
    "C123_bfs",
    "C123_dfs",
    "C123_edges",
    "C123_dijkstra",
    "C123_astar",
    "C123_debug_refuted"
   ],
   "note": "Proved in release builds and for undirected graphs, the searches by neighbours in all builds; debug builds of directed graphs panic (C123_debug_refuted)."
  },
  {
   "property": "C124",
   "status": "proved",
   "theorems": [
    "C124_costs",
    "C124_undirected"
   ],
   "note": "petgraph's algorithm is transcribed with integer costs, which do not overflow or round."
  },
  {
   "property": "C125",
   "status": "proved",
   "theorems": [
    "C125_costs",
    "C125_negative"
   ],
   "note": "All markers, index types and sizes; as C124."
  },
  {
   "property": "C126",
   "status": "proved",
   "theorems": [
    "C126_costs",
    "C126_undirected",
    "C126_zero"
   ],
   "note": "petgraph's algorithm is transcribed with integer costs that do not overflow; any priority queue."
  },
  {
   "property": "C127",
   "status": "proved",
   "theorems": [
    "C127_costs",
    "C127_map",
    "C127_zero"
   ],
   "note": "All markers, index types and sizes; as C126."
  },
  {
   "property": "C128",
   "status": "proved",
   "theorems": [
    "C128_cliques",
    "C128_part",
    "C128_sizes"
   ],
   "note": "petgraph's algorithm is transcribed; the order in which its sets are iterated is arbitrary. Only LatticeGraph has is_adjacent."
  },
  {
   "property": "C129",
   "status": "proved",
   "theorems": [
    "C129_paths",
    "C129_members",
    "C129_round"
   ],
   "note": "petgraph's algorithm is transcribed; the collection a path is gathered in is a list."
  },
  {
   "property": "C130",
   "status": "proved",
   "theorems": [
    "C130_paths",
    "C130_members",
    "C130_round"
   ],
   "note": "All markers, index types and sizes; as C129."
  },
  {
   "property": "C131",
   "status": "proved",
   "theorems": [
    "C131_kinds",
    "C131_unlooped",
    "C131_looped",
    "C131_edges",
    "C131_one_edge",
    "C131_paths"
   ],
   "note": "The shapes of the crate whose moves follow their geometry."
  },
  {
   "property": "C132",
   "status": "proved",
   "theorems": [
    "C132_once",
    "C132_one_edge",
    "C132_paths"
   ],
   "note": "All markers, index types and sizes."
  },
  {
   "property": "C133",
   "status": "proved",
   "theorems": [
    "C133_pairs",
    "C133_half",
    "C133_perfect"
   ],
   "note": "greedy_matching is petgraph's, transcribed; the crate's part is neighbors, node_identifiers, to_index and the visit map."
  },
  {
   "property": "C134",
   "status": "proved",
   "theorems": [
    "C134_pairs",
    "C134_half",
    "C134_perfect",
    "C134_no_rows"
   ],
   "note": "As C133; boards without rows panic (C134_no_rows)."
  },
  {
   "property": "C135",
   "status": "proved",
   "theorems": [
    "C135_text"
   ],
   "note": "The lines as tuples; printing numbers and weights is left to the formatting machinery."
  },
  {
   "property": "C136",
   "status": "proved",
   "theorems": [
    "C136_text"
   ],
   "note": "As C135."
  },
  {
   "property": "C137",
   "status": "proved",
   "theorems": [
    "C137_events",
    "C137_rule"
   ],
   "note": "Events, what the visitor makes of them, and the nodes reached where it prunes by a rule."
  },
  {
   "property": "C138",
   "status": "proved",
   "theorems": [
    "C138_events",
    "C138_rule"
   ],
   "note": "As C137."
  },
  {
   "property": "C139",
   "status": "proved",
   "theorems": [
    "C139_colours",
    "C139_two",
    "C139_boards"
   ],
   "note": "Colours, their number, and two where two can do."
  },
  {
   "property": "C140",
   "status": "proved",
   "theorems": [
    "C140_colours",
    "C140_two",
    "C140_boards",
    "C140_no_rows",
    "C140_nothing"
   ],
   "note": "As C139 for boards with at least one row, and what happens without rows."
  }
 ]
}