{
 "claims": [
  {
   "property": "C01",
   "status": "proved",
   "theorems": [
    "C01_chain_order"
   ],
   "note": "Full statement."
  },
  {
   "property": "C02",
   "status": "partial",
   "theorems": [
    "C02_addObject_returns_refuted",
    "C02_addObject_returns_partial"
   ],
   "note": "Refuted: adding the last member of a cycle of three blocks recurses forever. Holds for acyclic pins."
  },
  {
   "property": "C03",
   "status": "partial",
   "theorems": [
    "C03_returned_index_refuted",
    "C03_returned_index_partial"
   ],
   "note": "Refuted when two or more parents are moved; holds when none has to be moved."
  },
  {
   "property": "C04",
   "status": "proved",
   "theorems": [
    "C04_exec_order",
    "C04_exec_cycle"
   ],
   "note": "Full statement; the throw of a single block is in C12."
  },
  {
   "property": "C05",
   "status": "partial",
   "theorems": [
    "C05_loop_error_only_for_loops_refuted",
    "C05_loop_error_only_for_loops_partial"
   ],
   "note": "Refuted by pins created after the insertion; holds for pins created before."
  },
  {
   "property": "C06",
   "status": "partial",
   "theorems": [
    "C06_ids_distinct",
    "C06_delete_exact",
    "C06_clone_same",
    "C06_ids_after_clone_refuted"
   ],
   "note": "Distinct ids, exact deletion and clone content proved; refuted for ids assigned after a clone."
  },
  {
   "property": "C07",
   "status": "proved",
   "theorems": [
    "C07_addPin",
    "C07_addPin_builds_ports"
   ],
   "note": "Full statement, including the lazy construction of ports."
  },
  {
   "property": "C08",
   "status": "proved",
   "theorems": [
    "C08_graph_ends_agree"
   ],
   "note": "Full statement for histories of addPin."
  },
  {
   "property": "C09",
   "status": "partial",
   "theorems": [
    "C09_removeAllPins_refuted",
    "C09_removeAllPins_partial"
   ],
   "note": "Refuted (stale indices when a port has two links to the same block); holds when each port has at most one link to the other block."
  },
  {
   "property": "C10",
   "status": "partial",
   "theorems": [
    "C10_removePin_missing_refuted",
    "C10_removePin_wrong_half_refuted",
    "C10_removePin_partial"
   ],
   "note": "Refuted: a missing pin still decrements the tables, and the wrong half-pin is removed when a port feeds two ports of a block; holds for a pin that is the only one between its ports and the two blocks."
  },
  {
   "property": "C11",
   "status": "partial",
   "theorems": [
    "C11_removePins_terminates_refuted",
    "C11_removePins_dangling_refuted",
    "C11_removePins_partial"
   ],
   "note": "Refuted: non-termination after four addPin calls, dangling link after two; holds when each port has at most one link per peer."
  },
  {
   "property": "C12",
   "status": "proved",
   "theorems": [
    "C12_mandatory_ports",
    "C12_exec_runs"
   ],
   "note": "Full statement."
  },
  {
   "property": "C13",
   "status": "partial",
   "theorems": [
    "C13_createPortOut",
    "C13_createPortIn_refuted",
    "C13_createPortIn_partial"
   ],
   "note": "Full for output ports; refuted for input ports (the code tests the output table), holds when the name is used on both sides or none."
  },
  {
   "property": "C14",
   "status": "proved",
   "theorems": [
    "C14_pin_delivery",
    "C14_pin_delivery_user_types"
   ],
   "note": "Full statement for every port type of the library and every history of executions; a second theorem covers any user type that round-trips."
  },
  {
   "property": "C15",
   "status": "partial",
   "theorems": [
    "C15_round_trip_refuted",
    "C15_round_trip_partial",
    "C15_round_trip_any_destination_partial"
   ],
   "note": "Refuted for a map nested in a map (the reading loop reuses its key and value variables and reading a map does not clear it); holds for every other nesting, into any destination."
  },
  {
   "property": "C16",
   "status": "partial",
   "theorems": [
    "C16_map_replaced_refuted",
    "C16_map_merged_partial",
    "C16_map_replaced_if_empty_partial"
   ],
   "note": "Refuted: entries already in the destination map survive; the exact merged content is proved, and replacement holds for an empty destination."
  },
  {
   "property": "C17",
   "status": "partial",
   "theorems": [
    "C17_connections_restored",
    "C17_file_round_trip",
    "C17_bad_section_skipped",
    "C17_order_refuted",
    "C17_order_partial",
    "C17_no_wrong_pin"
   ],
   "note": "Same pins and same tables for every visiting order, and no wrong pin for any file: full. The order of links on a port is refuted for more than ten connections (section titles are visited as strings) and proved for creation order."
  },
  {
   "property": "C18",
   "status": "proved",
   "theorems": [
    "C18_registry",
    "C18_stable",
    "C18_conflicts_stop_debug_builds"
   ],
   "note": "Full statement, debug and release builds."
  },
  {
   "property": "C19",
   "status": "partial",
   "theorems": [
    "C19_create",
    "C19_deleted_once",
    "C19_same_creator_refuted"
   ],
   "note": "Full when each creator is given once; refuted when the same creator is registered again for its name (use after free)."
  },
  {
   "property": "C20",
   "status": "proved",
   "theorems": [
    "C20_shared_ownership",
    "C20_deleted_with_last_owner"
   ],
   "note": "Full statement; addresses may be reused by the allocators. Pointers held by the pointed objects are not modelled."
  },
  {
   "property": "C21",
   "status": "proved",
   "theorems": [
    "C21_complete"
   ],
   "note": "Full statement (an UNDEFINED location has no elements)."
  },
  {
   "property": "C22",
   "status": "partial",
   "theorems": [
    "C22_keep_order",
    "C22_any_order_partial",
    "C22_duplicates_refuted"
   ],
   "note": "Proved with keepOrder, and without for lists without duplicates; refuted for a repeated id (insert throws)."
  },
  {
   "property": "C23",
   "status": "proved",
   "theorems": [
    "C23_merge"
   ],
   "note": "Full statement."
  },
  {
   "property": "C24",
   "status": "partial",
   "theorems": [
    "C24_point_to_cell_partial",
    "C24_cell_to_point",
    "C24_point_to_cell_bounds",
    "C24_cell_to_point_bounds",
    "C24_cell_to_point_support",
    "C24_missing_vertex_refuted",
    "C24_degenerate_refuted"
   ],
   "note": "Cell to point: full statement for vertices distinct from the centroids. Point to cell: proved when every vertex of a cell has a value; refuted otherwise (at() throws for the whole call) and for a vertex at the centroid (division by zero)."
  },
  {
   "property": "C25",
   "status": "proved",
   "theorems": [
    "C25_points",
    "C25_cells",
    "C25_lists"
   ],
   "note": "Full statement, for points, cells and the lists of all of them."
  },
  {
   "property": "C26",
   "status": "partial",
   "theorems": [
    "C26_cell",
    "C26_total_partial",
    "C26_refuted"
   ],
   "note": "Validity and containment proved for every cell returned; a cell is returned for every point of the mesh and every point whose coordinate quotients fit an int; refuted far from the mesh (undefined conversion to int)."
  },
  {
   "property": "C27",
   "status": "proved",
   "theorems": [
    "C27_points_bounded",
    "C27_points_between",
    "C27_points_exact",
    "C27_points_affine",
    "C27_points_local",
    "C27_cells_bounded",
    "C27_cells_between",
    "C27_cells_exact",
    "C27_cells_affine",
    "C27_vectors",
    "C27_integers",
    "C27_integers_total"
   ],
   "note": "Full statement for doubles, vectors and integers; also exact on affine data and local to the cell. Points out of the int range are in C26."
  },
  {
   "property": "C28",
   "status": "proved",
   "theorems": [
    "C28_build",
    "C28_no_shape",
    "C28_setMesh"
   ],
   "note": "Full statement, with setMesh."
  },
  {
   "property": "C29",
   "status": "partial",
   "theorems": [
    "C29_total",
    "C29_numbers",
    "C29_coordinates",
    "C29_shared_partial",
    "C29_sphere_refuted",
    "C29_wedge_refuted",
    "C29_sector_refuted",
    "C29_box"
   ],
   "note": "Numbers 0..N-1, all used, consistent both ways, in order, one point in the coordinate lists for each; termination and bounds of the loop; all proved for every lattice. 'Only if the same point' is proved for boxes, cylinders that are periodic only when whole, spheres with non periodic azimuth (C29_shared_partial) and refuted for the default sphere (m_ny-1 is joined instead of m_ny), the wedge (joined along the edge instead of across) and sectors of cylinders."
  },
  {
   "property": "C30",
   "status": "partial",
   "theorems": [
    "C30_world_partial",
    "C30_local_partial",
    "C30_basic",
    "C30_world_refuted",
    "C30_local_refuted"
   ],
   "note": "Basic and local coordinates: full. World to local and back: proved away from the plane of the edge of a wedge, refuted there. Local to world and back: proved where the parameters of a point are unique, refuted on the axis of a cylinder."
  },
  {
   "property": "C31",
   "status": "partial",
   "theorems": [
    "C31_cells",
    "C31_tree_cells",
    "C31_points",
    "C31_tree_points_partial",
    "C31_tree_points_refuted"
   ],
   "note": "Full for cells (one by one and with the search tree), for lists of points and for tessellations. Refuted for the points of a geometry: the exclusion starts from the cell ids; proved when these are the vertex ids."
  },
  {
   "property": "C32",
   "status": "partial",
   "theorems": [
    "C32_axes",
    "C32_axes_accepted",
    "C32_axis_partial",
    "C32_axis_nan",
    "C32_refuted"
   ],
   "note": "Three axes: full. One axis: proved whenever the call does not divide by zero, and it divides by zero exactly for an axis along the next world axis (refuted)."
  },
  {
   "property": "C33",
   "status": "proved",
   "theorems": [
    "C33_inverse",
    "C33_products"
   ],
   "note": "Full statement."
  },
  {
   "property": "C34",
   "status": "partial",
   "theorems": [
    "C34_rotation",
    "C34_rigid",
    "C34_additive",
    "C34_still",
    "C34_direction",
    "C34_setAxis_refuted"
   ],
   "note": "Proved for unit directions (all that setDirection produces): law with filter, rigidity, fixed axis, additivity over any list of executions of one object, rest. Refuted for setAxis (and the port of the axis), which keeps the length of the direction: distances change and axis points move."
  },
  {
   "property": "C35",
   "status": "partial",
   "theorems": [
    "C35_twist_partial",
    "C35_distance",
    "C35_negative",
    "C35_negative_refuted"
   ],
   "note": "Proved for alpha >= 0 and D > 0; foot, distance from the axis and axis points proved for every alpha and D <> 0. For alpha < 0 the cap picks the larger angle: exact law C35_negative, refutation C35_negative_refuted."
  },
  {
   "property": "C36",
   "status": "partial",
   "theorems": [
    "C36_scale",
    "C36_mean_fixed",
    "C36_scale_mean",
    "C36_translate",
    "C36_still",
    "C36_bend_partial",
    "C36_bend_use_partial",
    "C36_bend_setters",
    "C36_constant_refuted",
    "C36_port_frame_refuted"
   ],
   "note": "Scale (given centre and mean point), translate, and rest under a null filter proved without restriction. Bend proved for laws whose degree 0 polynomials are null and frames set by the setters; refuted for constant laws (skipped though documented) and for an origin given through the port (the local flag is not set)."
  },
  {
   "property": "C37",
   "status": "partial",
   "theorems": [
    "C37_moves",
    "C37_executions",
    "C37_filter_partial",
    "C37_scalar",
    "C37_twice_refuted",
    "C37_volume_refuted",
    "C37_foreign_refuted",
    "C37_filter_alone_refuted",
    "C37_use"
   ],
   "note": "Without filter: proved for any number of executions. With filter on a surface: exact law of n executions (factor*(f+...+f^n)*d), so right for one and refuted for two. Scalar input along the normals proved for one execution, with the state kept for the next. Refuted: filter on a geometry that is not a surface, displacements of another geometry accepted when a filter is set, exception for a filter without displacements. Vertex normals are an arbitrary function of the vertices."
  },
  {
   "property": "C38",
   "status": "partial",
   "theorems": [
    "C38_get_partial",
    "C38_get_total",
    "C38_get_end",
    "C38_get_refuted",
    "C38_fill_partial",
    "C38_fill_out",
    "C38_fill_refuted"
   ],
   "note": "Proved for end positions inside the vector and start positions inside or beyond it; safety for all. Refuted for an end at or beyond the size (last element lost, or the whole vector for the last start) and for filling with a negative start (comparison of a negative int with size_t: nothing is filled)."
  },
  {
   "property": "C39",
   "status": "proved",
   "theorems": [
    "C39_numbering",
    "C39_offset"
   ],
   "note": "Full statement, for any number of ranks, any partition and any order of arrival of the messages. The exchange lists of the patch (bitpit) are an assumption, spelled out in GhostSpec.v."
  },
  {
   "property": "C40",
   "status": "partial",
   "theorems": [
    "C40_mixture_partial",
    "C40_total_partial",
    "C40_field",
    "C40_apply_partial",
    "C40_others",
    "C40_rigid",
    "C40_null",
    "C40_bounds",
    "C40_point_refuted",
    "C40_unclamped_refuted"
   ],
   "note": "Mixture, rigid translation, null displacements, bounds, vertices outside: for solid shapes, positive weights and points whose local coordinates are in the box; missing the shell of 1e-12 the selection adds. Refuted: apply(point) reads the nodes in the wrong order, out of the list; an unclamped direction reads out of the list in the shell."
  },
  {
   "property": "C41",
   "status": "partial",
   "theorems": [
    "C41_diagonal",
    "C41_kernels",
    "C41_parametrization",
    "C41_moved",
    "C41_outside",
    "C41_defined",
    "C41_null_refuted",
    "C41_compact_refuted",
    "C41_interpolation",
    "C41_greedy"
   ],
   "note": "The solver of the linear system and the greedy algorithm (bitpit::RBF) are oracles; exactness at nodes is claimed under the assumption that the oracle solves the system. C41_null_refuted and C41_compact_refuted show where the claim fails."
  },
  {
   "property": "C42",
   "status": "proved",
   "theorems": [
    "C42_truncated_message_fails"
   ],
   "note": "Full statement."
  },
  {
   "property": "C43",
   "status": "partial",
   "theorems": [
    "C43_streamed_pointer_refuted",
    "C43_streamed_pointer_partial"
   ],
   "note": "Refuted when the sender's getter returns the only owner, and when a pointer is read back into its only owner; holds while another owner exists."
  },
  {
   "property": "C44",
   "status": "partial",
   "theorems": [
    "C44_lookup_registers_refuted",
    "C44_lookup_partial"
   ],
   "note": "Refuted in release builds; holds in debug builds and for registered names."
  },
  {
   "property": "C45",
   "status": "partial",
   "theorems": [
    "C45_count_refuted",
    "C45_count_partial"
   ],
   "note": "Refuted: the result is always one more than the number of creators."
  },
  {
   "property": "C46",
   "status": "partial",
   "theorems": [
    "C46_both_checks",
    "C46_ids_check",
    "C46_undefined_refuted",
    "C46_resize",
    "C46_resize_name_refuted"
   ],
   "note": "Both checks together and the ids check characterised; refuted for an empty field with UNDEFINED location, and the resized copy loses the name."
  },
  {
   "property": "C47",
   "status": "proved",
   "theorems": [
    "C47_as_vector",
    "C47_internal",
    "C47_raw",
    "C47_set_data"
   ],
   "note": "Full statement."
  },
  {
   "property": "C48",
   "status": "partial",
   "theorems": [
    "C48_initialize",
    "C48_null_refuted"
   ],
   "note": "Proved for a valid geometry; refuted for a null geometry (dereferenced)."
  },
  {
   "property": "C49",
   "status": "partial",
   "theorems": [
    "C49_formula_partial",
    "C49_zero_gradient_partial",
    "C49_linear_refuted",
    "C49_maximum_refuted"
   ],
   "note": "Refuted: the gradient term is multiplied by the value, and maximum keeps the largest value. The computed formula and the bounds for zero gradients are proved."
  },
  {
   "property": "C50",
   "status": "partial",
   "theorems": [
    "C50_set_location",
    "C50_int_valid_refuted"
   ],
   "note": "setDataLocation proved; intIsValidLocation refuted (accepts every integer)."
  },
  {
   "property": "C51",
   "status": "proved",
   "theorems": [
    "C51_boundary"
   ],
   "note": "Full statement for interfaces with vertices, distinct from the centroid."
  },
  {
   "property": "C52",
   "status": "partial",
   "theorems": [
    "C52_cells_sound",
    "C52_cells_complete_partial",
    "C52_points_sound",
    "C52_points_complete_partial",
    "C52_sector_refuted",
    "C52_wedge_refuted",
    "C52_points_refuted"
   ],
   "note": "Soundness for every shape and tree. No cell is lost by cubes, wedges with world axes, whole cylinders and spheres, and no point by cubes and wedges; refuted for sectors of cylinder, turned wedges and, for points, turned cylinders."
  },
  {
   "property": "C53",
   "status": "partial",
   "theorems": [
    "C53_sound",
    "C53_complete_partial",
    "C53_refuted"
   ],
   "note": "Soundness full; completeness for whole turns and for unique parameters, refuted on the axis of a marked sector."
  },
  {
   "property": "C54",
   "status": "partial",
   "theorems": [
    "C54_span",
    "C54_infimum",
    "C54_periodic_refuted"
   ],
   "note": "Spans and infima: full; the periodic azimuth is refuted."
  },
  {
   "property": "C55",
   "status": "partial",
   "theorems": [
    "C55_flag_partial",
    "C55_refuted"
   ],
   "note": "Refuted: setInfLimits of the polar angle of a sphere changes the span and leaves isBuilt() true; holds for all histories without that call."
  },
  {
   "property": "C56",
   "status": "partial",
   "theorems": [
    "C56_assign_partial",
    "C56_refuted"
   ],
   "note": "Refuted: assigning a mesh without shape keeps the old shape; holds in all other cases."
  },
  {
   "property": "C57",
   "status": "partial",
   "theorems": [
    "C57_partial",
    "C57_refuted"
   ],
   "note": "Refuted: the default cylinder of setShape has its radius and height from uninitialised memory; holds in all other cases."
  },
  {
   "property": "C58",
   "status": "proved",
   "theorems": [
    "C58_spacing",
    "C58_copy"
   ],
   "note": "Full statement."
  },
  {
   "property": "C59",
   "status": "proved",
   "theorems": [
    "C59_setShape",
    "C59_reachable"
   ],
   "note": "Full statement. The coordinate types are not kept (not claimed)."
  },
  {
   "property": "C60",
   "status": "proved",
   "theorems": [
    "C60_corners"
   ],
   "note": "Full statement."
  },
  {
   "property": "C61",
   "status": "partial",
   "theorems": [
    "C61_same_place_partial",
    "C61_regular",
    "C61_refuted"
   ],
   "note": "Proved for boxes and tubes and, for every shape, away from axis, seam, poles and edge; refuted on the axis of the default cylinder, the seam of the default sphere and the edge of the default wedge."
  },
  {
   "property": "C62",
   "status": "partial",
   "theorems": [
    "C62_refuted",
    "C62_rebuild"
   ],
   "note": "Refuted for every built lattice: the count is kept and the coordinates are read out of bounds; a later build makes the numbers valid."
  },
  {
   "property": "C63",
   "status": "partial",
   "theorems": [
    "C63_reuse_partial",
    "C63_refuted"
   ],
   "note": "Proved if vertices were only moved or removed; refuted for added vertices: the unit filter made by the first execution is taken for a user filter and completed with 0."
  },
  {
   "property": "C64",
   "status": "partial",
   "theorems": [
    "C64_output_partial",
    "C64_twice_refuted"
   ],
   "note": "Exact law for n executions (filter to the n-th power); right for one, refuted for two."
  },
  {
   "property": "C65",
   "status": "partial",
   "theorems": [
    "C65_logical_partial",
    "C65_logical_refuted",
    "C65_logical_int",
    "C65_find",
    "C65_count"
   ],
   "note": "Proved; undefined result when no policy is set."
  },
  {
   "property": "C66",
   "status": "partial",
   "theorems": [
    "C66_vertices_serial",
    "C66_vertices_distributed",
    "C66_cells",
    "C66_cells_inverse_refuted",
    "C66_cells_inverse_partial"
   ],
   "note": "Vertices proved. Refuted for getMapCellInv without ghosts, which looks cells up by their number instead of their id; right when numbers are ids."
  },
  {
   "property": "C67",
   "status": "partial",
   "theorems": [
    "C67_histories",
    "C67_made",
    "C67_copy_refuted",
    "C67_swap_refuted",
    "C67_swap_partial",
    "C67_clean_refuted"
   ],
   "note": "Proved for every history of calls on one object, for objects at construction and for the object swap is called on. Refuted for the argument of swap (numbering and point connectivity of the other geometry are kept), for copies (which share the patch) and for the clean of a distributed geometry which deletes ghost cells."
  },
  {
   "property": "C68",
   "status": "partial",
   "theorems": [
    "C68_update",
    "C68_total",
    "C68_numbering_refuted"
   ],
   "note": "Statuses, totality and unchanged geometry proved for every history. Refuted for the numbering after resetPatch or reset: it is never built again."
  },
  {
   "property": "C69",
   "status": "partial",
   "theorems": [
    "C69_supported_partial",
    "C69_lists_refuted",
    "C69_cloud_refuted"
   ],
   "note": "Proved for objects made by type, through every history which does not empty the patch of a point cloud. Refuted for the constructor from lists (the test is inverted), for copies and for emptied point clouds."
  },
  {
   "property": "C70",
   "status": "proved",
   "theorems": [
    "C70_copies"
   ],
   "note": "Full statement for built lattices; meshes without shape are in C56."
  },
  {
   "property": "C71",
   "status": "proved",
   "theorems": [
    "C71_spline",
    "C71_values"
   ],
   "note": "Full statement for clamped shapes with positive weights."
  },
  {
   "property": "C72",
   "status": "proved",
   "theorems": [
    "C72_corner",
    "C72_bezier"
   ],
   "note": "Full statement for clamped shapes with positive weights."
  },
  {
   "property": "C73",
   "status": "partial",
   "theorems": [
    "C73_total",
    "C73_displacements",
    "C73_weights",
    "C73_weights_refuted",
    "C73_size_refuted"
   ],
   "note": "Totality, degrees, displacements and weights set since the last build proved; refuted: weights built before are lost at the next build; a list of displacements of a wrong size is stored and read out of bounds."
  },
  {
   "property": "C74",
   "status": "proved",
   "theorems": [
    "C74_spline"
   ],
   "note": "Unclamped directions are in C40 only. Nodes closer than 2e-12 in local coordinates are excluded (C40 shows why)."
  },
  {
   "property": "C75",
   "status": "proved",
   "theorems": [
    "C75_continuous",
    "C75_box"
   ],
   "note": "Continuity is in local coordinates, and in world coordinates for boxes; at the axis of a cylinder or the poles of a sphere local coordinates are not continuous, and nothing is claimed there. The seam of a sphere is not claimed: its nodes are joined wrongly (C29_sphere_refuted)."
  },
  {
   "property": "C76",
   "status": "partial",
   "theorems": [
    "C76_variable",
    "C76_homogeneous",
    "C76_automatic",
    "C76_negative_refuted",
    "C76_list_geometry_refuted",
    "C76_partial_field_refuted",
    "C76_field_list_refuted"
   ],
   "note": "Negative lists, lists with nodes from a geometry, partial fields and fields with listed nodes are refuted: the radii asked for are silently not used."
  },
  {
   "property": "C77",
   "status": "partial",
   "theorems": [
    "C77_scalar",
    "C77_geometry",
    "C77_geometry_radii",
    "C77_scalar_field_refuted",
    "C77_list_geometry_refuted",
    "C77_no_data_refuted",
    "C77_refused",
    "C77_stale_refuted"
   ],
   "note": "Scalar fields with listed nodes, lists with nodes from a geometry, missing displacements and a refused execution followed by apply are refuted."
  },
  {
   "property": "C78",
   "status": "partial",
   "theorems": [
    "C78_reported",
    "C78_pairs_partial",
    "C78_triple_refuted"
   ],
   "note": "True when each node has at most one neighbour (C78_pairs_partial); with three coincident nodes two of them are left (C78_triple_refuted)."
  },
  {
   "property": "C79",
   "status": "partial",
   "theorems": [
    "C79_listed",
    "C79_extract",
    "C79_subdivision",
    "C79_assign",
    "C79_name",
    "C79_resync",
    "C79_clone",
    "C79_map_refuted",
    "C79_long_refuted",
    "C79_stale_refuted",
    "C79_clone_tolerance_refuted"
   ],
   "note": "Histories cover addVertex, addConnectedCell, addCell, deletions, setPID (list, and map covering the cells), setPIDCell, setPIDName, resyncPID, setTolerance and clone, with identifiers in the range of int. Refuted: a map on some cells only makes the identifiers of the others unlisted; an identifier outside int is listed but no cell is extracted for it; identifiers no cell has stay listed until resyncPID; clone does not copy the tolerance."
  },
  {
   "property": "C80",
   "status": "partial",
   "theorems": [
    "C80_coherent",
    "C80_add",
    "C80_construct",
    "C80_two_vertices_refuted",
    "C80_type_refuted",
    "C80_polygon_refuted",
    "C80_no_connectivity_refuted"
   ],
   "note": "The check and the constructor are characterised exactly. Refuted: polygons of two vertices are accepted; the type of the element is not checked against the mesh; a polygon of three vertices written as documented is read as a quad; a null connectivity is dereferenced."
  },
  {
   "property": "C81",
   "status": "partial",
   "theorems": [
    "C81_rebuild_partial",
    "C81_polyhedron_refuted",
    "C81_lists"
   ],
   "note": "Proved for every mesh without polyhedra (suffix _partial: polyhedra are missing because the property fails for them). Refuted for polyhedra: the last face is replaced by zeros and the cell is lost."
  },
  {
   "property": "C82",
   "status": "partial",
   "theorems": [
    "C82_vertices",
    "C82_cells",
    "C82_cloud_refuted"
   ],
   "note": "Exact for surfaces, volumes and curves. Refuted for clouds: both lists are always empty although the cells of a cloud are vertices."
  },
  {
   "property": "C83",
   "status": "proved",
   "theorems": [
    "C83_part",
    "C83_cloud",
    "C83_unknown"
   ],
   "note": "Proved for geometries reached by any history of API calls whose cells are readable and whose vertices exist, when no two vertices are within the tolerance (the deletion of coincident vertices, bitpit's, is asked to leave such a geometry alone). An id that is not in the geometry is undefined behaviour (C83_unknown)."
  },
  {
   "property": "C84",
   "status": "partial",
   "theorems": [
    "C84_exact",
    "C84_all",
    "C84_requests_refuted",
    "C84_after_refuted",
    "C84_later_refuted",
    "C84_cloud_refuted"
   ],
   "note": "Partial: proved for requests with non-negative identifiers and deactivations other than of 0, and for all of them. Refuted: deactivating 0 deactivates all; a negative identifier other than -1 activates none; one after all leaves one; deactivating one after all has no effect; nor has any deactivation after an execution; identifiers given later are not seen; clouds are ignored."
  },
  {
   "property": "C85",
   "status": "partial",
   "theorems": [
    "C85_exact",
    "C85_cloud",
    "C85_dual_refuted"
   ],
   "note": "Partial: the selection is exact, on clouds too; the dual flag is ignored (refuted)."
  },
  {
   "property": "C86",
   "status": "partial",
   "theorems": [
    "C86_clip",
    "C86_coefficients_partial",
    "C86_coefficients_refuted",
    "C86_zero",
    "C86_later_refuted",
    "C86_cloud_refuted",
    "C86_tolerance_refuted"
   ],
   "note": "Partial: exact for a plane given by point and normal, by one call or two, inside out or not; four coefficients only with a normal of length one (the constant is not scaled, refuted); setOrigin and setNormal have no effect after an execution, clouds without cells are undefined behaviour, the tolerance is not copied (refuted)."
  },
  {
   "property": "C87",
   "status": "partial",
   "theorems": [
    "C87_stitched",
    "C87_defined",
    "C87_disjoint",
    "C87_names_partial",
    "C87_names_refuted",
    "C87_polyhedron_refuted",
    "C87_negative_refuted",
    "C87_topology_refuted"
   ],
   "note": "Partial: cells, vertices and identifiers proved without polyhedra; disjointness for non-negative identifiers; names of the last geometry. Refuted: polyhedra are lost, names of the others are overwritten, negative identifiers collide, an empty list of identifiers is undefined behaviour with the reassignment (C87_defined), volumes, clouds and curves cannot be stitched."
  },
  {
   "property": "C88",
   "status": "partial",
   "theorems": [
    "C88_triangulated",
    "C88_area_partial",
    "C88_refused",
    "C88_block",
    "C88_pixel_refuted"
   ],
   "note": "Proved for triangles, quadrilaterals and polygons (cells, ids, vertices, part identifiers, vector area, both modes of the block; what is refused). Refuted: structured PIXEL cells, whose vertices are numbered by rows, become overlapping triangles."
  },
  {
   "property": "C89",
   "status": "partial",
   "theorems": [
    "C89_degraded_partial",
    "C89_healthy",
    "C89_once",
    "C89_polygon_refuted",
    "C89_pixel_refuted",
    "C89_collapse_refuted",
    "C89_parts_refuted",
    "C89_wedge_refuted",
    "C89_polyhedron_refuted"
   ],
   "note": "Partial: proved for elements with a fixed number of vertices and exact comparison of coordinates, up to the place of the vertices. Refuted: healthy polygons are deleted, pixels are crossed, polyhedra change type, collapsed prisms are twisted, vertices collapsed in two cells in opposite orders are exchanged, parts of deleted cells stay listed."
  },
  {
   "property": "C90",
   "status": "partial",
   "theorems": [
    "C90_parts",
    "C90_one",
    "C90_empty_refuted",
    "C90_closed"
   ],
   "note": "Proved for all meshes that are not empty, given right adjacencies (computed by the bitpit library). Refuted: on a mesh without cells decomposeLoop throws."
  },
  {
   "property": "C91",
   "status": "proved",
   "theorems": [
    "C91_border",
    "C91_none",
    "C91_mesh",
    "C91_closed"
   ],
   "note": "Proved (serial build), given right adjacencies and interfaces from the bitpit library. The names of the parts are not inherited (stated in C91_mesh)."
  },
  {
   "property": "C92",
   "status": "partial",
   "theorems": [
    "C92_cells",
    "C92_vertices",
    "C92_all",
    "C92_nothing",
    "C92_vertices_refuted",
    "C92_twice_refuted"
   ],
   "note": "Proved for cells with and without seeds and for vertices with seeds, given right distances from the tree search. Refuted: without seeds the band of vertices is always empty (a local variable hides the candidates); a seed of the band given twice makes the call throw."
  },
  {
   "property": "C93",
   "status": "partial",
   "theorems": [
    "C93_inverse",
    "C93_points",
    "C93_isolated_refuted"
   ],
   "note": "Proved, for sound geometries and edges given by the bitpit library. Refuted: asking for the connections of a vertex without edges fails an assertion."
  },
  {
   "property": "C94",
   "status": "partial",
   "theorems": [
    "C94_scalar",
    "C94_vector",
    "C94_order",
    "C94_order_refuted",
    "C94_no_target",
    "C94_remove",
    "C94_remove_refuted",
    "C94_add",
    "C94_null_refuted",
    "C94_location_refuted"
   ],
   "note": "Proved: the values of both classes, with an exception exactly when a field lacks a value on an element its sub-patch shares with the target; independence of the order for scalars; removal when another field is left. Refuted: order for vectors of equal length; removing the only field reads the last element of an empty vector; addData follows a null geometry when the location agrees and accepts a field of another location (the guard has && for ||), whose values are then given to elements of the wrong kind."
  },
  {
   "property": "C95",
   "status": "partial",
   "theorems": [
    "C95_id",
    "C95_pid",
    "C95_mapping",
    "C95_refused",
    "C95_mapping_refuted",
    "C95_xml_refuted"
   ],
   "note": "Proved for the three modes on points and cells (by id on interfaces too), the set of cells near a geometry being a parameter. Refuted: by mapping, values are taken by equal id, not by place, so a target numbered in another way gets the values of other points; the mode written in a configuration file is not read back. Missing: interfaces in the modes by part identifier and by mapping."
  },
  {
   "property": "C96",
   "status": "partial",
   "theorems": [
    "C96_name",
    "C96_geometry",
    "C96_set",
    "C96_mean",
    "C96_first",
    "C96_no_mapping",
    "C96_first_refuted",
    "C96_xml",
    "C96_xml_refuted"
   ],
   "note": "Proved: first by name or geometry, mean for scalars and vectors-like additions, first for labels, order and filter of the list. Refuted: the documented first related element is a mean for scalars; the mode by mapping cannot be given by a configuration file, where it is read as a bool."
  },
  {
   "property": "C97",
   "status": "partial",
   "theorems": [
    "C97_select",
    "C97_complete",
    "C97_global",
    "C97_extract",
    "C97_root_refuted",
    "C97_exact_refuted"
   ],
   "note": "Proved for all trees of nested non-empty boxes and all tolerances. Refuted (C97_root_refuted): extractTarget on a target tree of one node takes its cells at any distance. Refuted (C97_exact_refuted): whole leaves are taken, also cells of them that are farther than the tolerance. Missing: rounding of the box tests."
  },
  {
   "property": "C98",
   "status": "partial",
   "theorems": [
    "C98_distance",
    "C98_signed",
    "C98_project",
    "C98_lost_refuted",
    "C98_enlarge_refuted",
    "C98_radii_refuted"
   ],
   "note": "The closest-cell search and the projection weights of bitpit are parameters with a specification. Refuted: nothing within the radius gives an infinite signed distance instead of the documented maximum double (C98_lost_refuted); projectPoint does not enlarge the radius and gives NaN coordinates (C98_enlarge_refuted); the radii of the caller are changed (C98_radii_refuted). Missing: rounding, points nearer than the tolerance where the interpolated normal is zero."
  },
  {
   "property": "C99",
   "status": "partial",
   "theorems": [
    "C99_segment",
    "C99_triangle",
    "C99_polygon",
    "C99_belongs",
    "C99_locate",
    "C99_pixel_refuted",
    "C99_concave_refuted",
    "C99_distance_refuted"
   ],
   "note": "Segments and triangles are proved for every tolerance with explicit bounds, polygons for strictly convex ones whose fan triangles are not degenerate. Refuted: PIXEL vertices are in row order, so points of the square are refused (C99_pixel_refuted); in a polygon that is not convex points of the notch are accepted (C99_concave_refuted); distancePointPolygon skips the triangle of the last side (C99_distance_refuted). The closest cell of bitpit is a parameter. Missing: rounding, the bound with tolerance for polygons."
  },
  {
   "property": "C100",
   "status": "partial",
   "theorems": [
    "C100_signed",
    "C100_located",
    "C100_whole",
    "C100_shared",
    "C100_shared_located",
    "C100_whole_shared_refuted",
    "C100_closest",
    "C100_radius_refuted"
   ],
   "note": "Proved over a semantics of blocking sends and receives in which the library may or may not copy each message: no deadlock (even without any copy), an explicit bound on the steps, results independent of the schedule. A gather is modelled as sends to the root. Refuted: with shared points and a surface every process has whole the distance has no sign (C100_whole_shared_refuted); the radius of the search of shared points is ignored (C100_radius_refuted). The searches and the minimum of bitpit are parameters. Missing: rounding, failures of processes."
  },
  {
   "property": "C101",
   "status": "proved",
   "theorems": [
    "C101_first",
    "C101_nearest"
   ],
   "note": "Proved for any number of rounds allowed >= 2 (1000 in the code). The distance with sign is a parameter with a specification. Missing: rounding; points nearer than the tolerance, where the normal is the one of the surface (see C98)."
  },
  {
   "property": "C102",
   "status": "partial",
   "theorems": [
    "C102_read",
    "C102_boundary_refuted",
    "C102_boundary_partial",
    "C102_collect_partial",
    "C102_collect_refuted",
    "C102_nodes_first",
    "C102_nodes",
    "C102_nodes_differ_refuted",
    "C102_lists",
    "C102_radii_refuted"
   ],
   "note": "Data read by process 0 reach all processes (types without a map in a map, see C15). Refuted for the CGNS boundary conditions: the kinds of the lists are read into the map of the condition types, so types are overwritten and kinds are lost on processes other than 0; zones and names are right. Collecting fields is right for fields without geometry; a field linked to a geometry makes process 0 use a pointer of another process. RBF nodes are the same on all processes when processes agree on common ids; otherwise each keeps its own (refuted). A radius field that does not cover all nodes overruns the list (refuted)."
  },
  {
   "property": "C103",
   "status": "partial",
   "theorems": [
    "C103_double",
    "C103_int",
    "C103_double_exact_refuted",
    "C103_string_refuted",
    "C103_vector_partial",
    "C103_int_vector_partial",
    "C103_vector_refuted",
    "C103_array",
    "C103_field",
    "C103_int_field",
    "C103_array_field",
    "C103_field_name_refuted",
    "C103_field_empty_refuted",
    "C103_binary_partial",
    "C103_binary_name_refuted",
    "C103_ascii",
    "C103_ascii_name_refuted"
   ],
   "note": "Integers, doubles (six digits, relative error below 5/10^6, exact when they have six digits), arrays and non-empty fields named by one word (integers, doubles, arrays) are read back, whatever the variables held. Refuted: the last element of every vector is lost (the reader fails at the end of the file and drops it), a one-word string is never read back, a name with a space loses the values, an empty field loses name and location, the name is always lost in binary files, a field without name in a text file is misread."
  },
  {
   "property": "C104",
   "status": "partial",
   "theorems": [
    "C104_labels",
    "C104_displs",
    "C104_template",
    "C104_cloud_points",
    "C104_cloud_fields_partial",
    "C104_cloud_label_refuted",
    "C104_cloud_exchanged_refuted",
    "C104_cloud_shared_refuted"
   ],
   "note": "Displacements, labels, templates and points of clouds are read back. Fields are read back when the labels are 0, 1, 2, ... in the order of the file (partial). Refuted otherwise: values are stored at the position of the label in the file while the vertices keep their labels, so a label not below the number of points never has a value, and the values of two points can be exchanged; a file written by processes that share a point cannot be read (an id is inserted twice). The name TEMPLATE_... is computed and never used: a template is written over the file."
  },
  {
   "property": "C105",
   "status": "partial",
   "theorems": [
    "C105_mirror",
    "C105_surface",
    "C105_image",
    "C105_labels",
    "C105_symmetric",
    "C105_force_refuted",
    "C105_coefficients_refuted",
    "C105_ports_refuted",
    "C105_clear_refuted",
    "C105_no_plane_refuted"
   ],
   "note": "Images, data, ids and symmetry are proved for a plane with a normal of length one, or given by point and normal. Refuted: with force set, which is the default, every point is mirrored and the side chosen has no effect; the constant of a plane given by coefficients is not divided by the length of the normal, so no point is mirrored where it should; after an execution the ports of point and normal have no effect, and after clear nothing is mirrored; without a plane the data are replaced with zeros."
  },
  {
   "property": "C106",
   "status": "partial",
   "theorems": [
    "C106_rotated",
    "C106_frame",
    "C106_compose",
    "C106_default_refuted",
    "C106_no_direction_refuted",
    "C106_translated_partial",
    "C106_translation_refuted"
   ],
   "note": "Rotations are proved for a direction that is not null. Refuted: the third axis of an object whose axes were not set is null; without a direction axes are shrunk by the cosine; directions of translation are not normalised (the test is the wrong way round), so the point moves by the value times the length of the direction, and the default null direction makes the result NaN even for a null translation. Translation proved for directions of length one (partial)."
  },
  {
   "property": "C107",
   "status": "partial",
   "theorems": [
    "C107_contains",
    "C107_axes",
    "C107_tight",
    "C107_again",
    "C107_oriented",
    "C107_smallest",
    "C107_strategy",
    "C107_main_axis",
    "C107_surface",
    "C107_tessellation",
    "C107_points_partial",
    "C107_several_refuted",
    "C107_memory_refuted",
    "C107_slanted_refuted",
    "C107_parallel_refuted",
    "C107_empty_refuted"
   ],
   "note": "Proved with LAPACK assumed right on the matrix computed. The covariance of surfaces is the integral over the triangles (Coquelicot's integral; no axioms beyond the standard ones). Refuted: the matrix of clouds starts from memory not initialised and counts the points of a geometry once more for each geometry after it, so it depends on the order of addresses; axes given to AABBox that are not normal one to the other give a frame whose spans do not reach all vertices, parallel ones no box; a geometry without points gives negative spans. Covariance of clouds proved for one geometry and null memory (partial)."
  },
  {
   "property": "C108",
   "status": "partial",
   "theorems": [
    "C108_distance",
    "C108_violation",
    "C108_small",
    "C108_external",
    "C108_external_violation",
    "C108_isolated_refuted",
    "C108_field_refuted",
    "C108_enclosed_refuted"
   ],
   "note": "Proved for fields on the points of the geometry, vertices of the surface and points within 10^12 of the constraints, with the search of the nearest cell assumed right for the radius it is given. Refuted: a vertex of no cell that is not displaced violates by the greatest double; a field not set, or on cells, is an error, not the null displacement, and a field of another geometry with the same ids is used silently; the allowed side is that of the middle of the box, so a geometry around a constraint violates it without being deformed."
  },
  {
   "property": "C109",
   "status": "partial",
   "theorems": [
    "C109_redgreen",
    "C109_closed",
    "C109_steps",
    "C109_ternary",
    "C109_not_triangles",
    "C109_smoothing",
    "C109_bounds",
    "C109_constrained",
    "C109_negative_refuted",
    "C109_pixel_refuted"
   ],
   "note": "Proved on one process with edges known by their ends and at most two faces on an edge (only needed when not all cells are active). Refuted: pixels in the ternary refinement, and the documented negative sub-step of the smoothing, that never happens when the object executes. Coarse and refined patches, ghosts and ids of cells are left out."
  },
  {
   "property": "C110",
   "status": "partial",
   "theorems": [
    "C110_equilibrium",
    "C110_bounds",
    "C110_monotone",
    "C110_superposition",
    "C110_steps",
    "C110_relaxation_refuted",
    "C110_no_conditions_refuted"
   ],
   "note": "Proved for one process and any correct solver (one exists: C110_nonvacuous_solver, by the axiom of choice of the library). Existence by the supremum of the fields below, uniqueness by the maximum principle. Refuted: a relaxation of zero, which is allowed, may leave vertices undetermined; without conditions, of which the code only warns, every constant solves the system."
  },
  {
   "property": "C111",
   "status": "partial",
   "theorems": [
    "C111_one_step",
    "C111_steps",
    "C111_translation",
    "C111_slip_plane_partial",
    "C111_slip_surface_partial",
    "C111_slip_surface_refuted",
    "C111_slip_normal_refuted"
   ],
   "note": "Any number of steps without slip walls, under the hypothesis that linked vertices are farther apart, along an axis, than the displacements may differ. Missing: slip walls in several steps. Refuted: the normal of the slip plane is an average that is not normalized; a slip reference surface with another number of vertices than the walls makes the code read out of bounds."
  },
  {
   "property": "C112",
   "status": "partial",
   "theorems": [
    "C112_distance",
    "C112_shape",
    "C112_volume",
    "C112_default_refuted"
   ],
   "note": "Closed forms for both types of damping. Refuted: the inner distance is zero by default and the code divides by it."
  },
  {
   "property": "C113",
   "status": "partial",
   "theorems": [
    "C113_vertices",
    "C113_values",
    "C113_determined",
    "C113_order_refuted",
    "C113_second_field_refuted",
    "C113_single",
    "C113_dangling_refuted"
   ],
   "note": "Refuted: vertices on two patches and two fields on one patch take a value that depends on the order of a set of pointers; from the second scalar condition on, the address kept for the first is that of memory given back."
  },
  {
   "property": "C114",
   "status": "partial",
   "theorems": [
    "C114_distribution",
    "C114_quality",
    "C114_ends",
    "C114_seeds",
    "C114_random",
    "C114_grid_refuted",
    "C114_sensitivity_refuted"
   ],
   "note": "Proved for any candidates with any sensitivities; ends exactly when the candidates are in more places than the points asked. Refuted: the grid engine never ends when one point is asked, or any number on surfaces narrow for it in two directions (a cube and four points); with sensitivities the real distances may be below the one reported."
  },
  {
   "property": "C115",
   "status": "proved",
   "theorems": [
    "C115_sensitivity",
    "C115_twice"
   ],
   "note": "Proved, except not-a-number values."
  },
  {
   "property": "C116",
   "status": "partial",
   "theorems": [
    "C116_level_set",
    "C116_min_distance",
    "C116_repeated_refuted",
    "C116_none_asked_refuted"
   ],
   "note": "Proved for any distance that is zero exactly on the vertices it is from (how it is computed is not modelled), if vertices of positive sensitivity are enough. Refuted: otherwise vertex 0 is repeated, or looked for where there is none; with no points asked one is given."
  },
  {
   "property": "C117",
   "status": "partial",
   "theorems": [
    "C117_repeatable",
    "C117_xml",
    "C117_signature_refuted"
   ],
   "note": "Repeatability proved for any generator; number of points, engine, seed and barycentre are restored. Refuted: the signature is written where the flag is read and is never restored; a distribution that was not fixed comes back fixed."
  },
  {
   "property": "C118",
   "status": "partial",
   "theorems": [
    "C118_good",
    "C118_status",
    "C118_cells",
    "C118_processes",
    "C118_border_cells_refuted",
    "C118_same_centre_refuted"
   ],
   "note": "Proved for an object just made, whatever the mesh, for tolerances that an object without measures meets; also on several processes. Refuted: for faces on the border that fail no cell is written out; the direction between cells with the same centre is not a number and passes the check."
  },
  {
   "property": "C119",
   "status": "partial",
   "theorems": [
    "C119_again",
    "C119_history_partial",
    "C119_history_refuted"
   ],
   "note": "Refuted: the indicators are never reset. Once a mesh has been rejected no mesh is reported good any more; proved exactly: the last status is good when all the meshes so far are acceptable. Executing again on the same mesh changes nothing."
  },
  {
   "property": "C120",
   "status": "partial",
   "theorems": [
    "C120_xml",
    "C120_angles_refuted",
    "C120_default_refuted"
   ],
   "note": "Volumes, ratios and validity are restored. Refuted: angles are written in radians and read as degrees; the same with the default, when the option is empty."
  },
  {
   "property": "C121",
   "status": "partial",
   "theorems": [
    "C121_curve",
    "C121_count",
    "C121_even",
    "C121_defined",
    "C121_few_points_refuted"
   ],
   "note": "Proved with any choice among the longest segments, exactly when the execution is defined. Refuted: with no points, after the warning, the behaviour is undefined (the top of an empty queue, or the element before the first), also with the default settings; so it is with one point and cells asked."
  },
  {
   "property": "C122",
   "status": "partial",
   "theorems": [
    "C122_again",
    "C122_history_partial",
    "C122_history_refuted"
   ],
   "note": "Refuted: the number of cells asked is raised by each execution and stays so; the cells are those needed by the longest list of points so far (proved exactly)."
  },
  {
   "property": "C123",
   "status": "proved",
   "theorems": [
    "C123_cloud"
   ],
   "note": "Proved."
  },
  {
   "property": "C124",
   "status": "partial",
   "theorems": [
    "C124_points",
    "C124_ends",
    "C124_length_partial",
    "C124_length_refuted",
    "C124_no_cells_refuted"
   ],
   "note": "The chain is proved for every count from 1 (C124_points), the ends with two points too. Refuted: a direction that is not of length one gives a segment of another length (C124_length_refuted; with a unit direction it is right, C124_length_partial); counts below one are accepted and give no segment (C124_no_cells_refuted: 0 divides by zero, -1 an empty mesh, less throws). Projection is a function of the point; partition of the result is not modelled."
  },
  {
   "property": "C125",
   "status": "partial",
   "theorems": [
    "C125_segment_refuted",
    "C125_read_back",
    "C125_read"
   ],
   "note": "Refuted for every segment of the kind: the six numbers are written with nothing between them, so they are read as one (C125_segment_refuted, C125_read_back). Text with spaces is read as written (C125_read), for all integers."
  },
  {
   "property": "C126",
   "status": "partial",
   "theorems": [
    "C126_box",
    "C126_contains",
    "C126_processes",
    "C126_empty_refuted"
   ],
   "note": "Proved for non-empty clouds whose coordinates with the support are within the range of doubles. With no node at all the box holds no point (C126_empty_refuted)."
  },
  {
   "property": "C127",
   "status": "proved",
   "theorems": [
    "C127_patch",
    "C127_again"
   ],
   "note": "Projection is a function of the point, the same for all vertices. Trees, partition and the update of the mesh after are not modelled."
  },
  {
   "property": "C128",
   "status": "partial",
   "theorems": [
    "C128_geom",
    "C128_serialize",
    "C128_custom_partial",
    "C128_custom_refuted",
    "C128_refused",
    "C128_other_processes_refuted",
    "C128_other_processes_partial"
   ],
   "note": "Proved for the first process with any history, for serialization on all processes. Refuted: a map given by the user is checked in its size only (C128_custom_refuted); on processes but the first the map left from the last execution is used again (C128_other_processes_refuted). METIS is assumed to give one process for each vertex; what bitpit does with the map is not modelled."
  },
  {
   "property": "C129",
   "status": "partial",
   "theorems": [
    "C129_graph",
    "C129_graph_partial",
    "C129_zero_refuted"
   ],
   "note": "The graph is found exactly: neighbours with identifier 0 are dropped. So it is right if no cell has identifier 0 (C129_graph_partial), and never if cell 0 has a neighbour (C129_zero_refuted): METIS needs both directions."
  },
  {
   "property": "C130",
   "status": "partial",
   "theorems": [
    "C130_follows",
    "C130_same_process",
    "C130_unfound_refuted",
    "C130_left_over_refuted",
    "C130_holes_refuted",
    "C130_serialize"
   ],
   "note": "Proved on the first process for boundaries without holes in memory, with the search of the nearest boundary cell a function. Refuted: boundary cells no face finds are told nothing; with holes the distances are read out of bounds; if volume and boundary are not both distributed the map left from before is used."
  },
  {
   "property": "C131",
   "status": "partial",
   "theorems": [
    "C131_xml_partial",
    "C131_custom_refuted",
    "C131_two_refuted",
    "C131_numbers"
   ],
   "note": "Proved for three methods. Refuted: CUSTOM is written as 99, that is refused; 2 is accepted and does nothing."
  },
  {
   "property": "C132",
   "status": "partial",
   "theorems": [
    "C132_reads",
    "C132_no_textures_refuted",
    "C132_last_vertex_refuted",
    "C132_no_part_refuted",
    "C132_empty_line_refuted",
    "C132_order_refuted"
   ],
   "note": "Proved for files laid out as the reader expects (vertices, textures, normals, then facets, for each part). Refuted: files without textures or without normals; facets of vertices only without a blank at the end of the line; files with no part; an empty line after the vertices of the first part; normals between vertices."
  },
  {
   "property": "C133",
   "status": "partial",
   "theorems": [
    "C133_written_partial",
    "C133_no_normals_refuted",
    "C133_textures_refuted",
    "C133_second_part_refuted",
    "C133_no_material_refuted",
    "C133_words_refuted"
   ],
   "note": "Proved for meshes with textures and normals, names of one word, and materials, groups and smoothing as the hypotheses of C133_written_partial say. Refuted: without textures or normals what is written cannot be read; two-coordinate textures; a second part with the smoothing and material of the first; cells without material after cells with one; names of more words. Cleaning after reading and the printing of decimals are not modelled."
  },
  {
   "property": "C134",
   "status": "proved",
   "theorems": [
    "C134_lists"
   ],
   "note": "Proved for all fields."
  },
  {
   "property": "C135",
   "status": "partial",
   "theorems": [
    "C135_annotations",
    "C135_pinned",
    "C135_pins",
    "C135_others",
    "C135_no_blanks_partial",
    "C135_other_group_refuted",
    "C135_left_out_refuted"
   ],
   "note": "Proved for each strategy. Refuted: the pin of a group gives cells of any group of which it is a part of the name (C135_other_group_refuted); without blanks, an annotation that is a part of those before is left out (C135_left_out_refuted). The test for a null geometry in the pins is not modelled."
  },
  {
   "property": "C136",
   "status": "partial",
   "theorems": [
    "C136_length",
    "C136_computed_partial",
    "C136_polygons_refuted"
   ],
   "note": "Lengths proved, with the tolerance a parameter. The cells of up to four vertices asked for are computed again and the others stay (C136_computed_partial). Refuted: cells of five vertices or more lose their normals (C136_polygons_refuted). The formula of the normal in a corner is a parameter; collapsing of vertices is not modelled."
  },
  {
   "property": "C137",
   "status": "partial",
   "theorems": [
    "C137_restored_partial",
    "C137_kept_refuted"
   ],
   "note": "Proved if no textures or normals are in the object restored into, or if both are in the stream. Refuted: data with textures keep them when data without are restored into them (C137_kept_refuted). Streams that are not dumps are not modelled."
  },
  {
   "property": "C138",
   "status": "partial",
   "theorems": [
    "C138_one_partial",
    "C138_second_refuted"
   ],
   "note": "Proved for reads of one directory only (C138_one_partial). Refuted: the mesh is static, so after the first read all others give its case, whatever the directory (C138_second_refuted). Loading from the disk is a parameter."
  },
  {
   "property": "C139",
   "status": "partial",
   "theorems": [
    "C139_polyhedra",
    "C139_shapes",
    "C139_faces",
    "C139_orientation_partial"
   ],
   "note": "Polyhedra and vertices of shapes proved; C139_orientation_partial says how each shape is oriented, but what bitpit takes as positive is not in the sources."
  },
  {
   "property": "C140",
   "status": "partial",
   "theorems": [
    "C140_faces",
    "C140_patches",
    "C140_first_vertices_refuted",
    "C140_past_end_refuted",
    "C140_old_map_refuted"
   ],
   "note": "Proved for meshes in which two faces of a cell share two vertices at most, from an empty map. Refuted: an interface with the first of the vertices of a face is taken for it (C140_first_vertices_refuted); a face with the first of the vertices of an interface is read past its end (C140_past_end_refuted); entries from before are kept (C140_old_map_refuted)."
  },
  {
   "property": "C141",
   "status": "partial",
   "theorems": [
    "C141_points",
    "C141_processes_partial",
    "C141_free_point_refuted"
   ],
   "note": "Proved for one process, and for more when all the points are of internal cells (C141_processes_partial). Refuted: with more processes a point of no cell makes all the writing refused (C141_free_point_refuted). Files are not modelled."
  },
  {
   "property": "C142",
   "status": "partial",
   "theorems": [
    "C142_bulk",
    "C142_past_end_refuted",
    "C142_boundary",
    "C142_no_value_refuted",
    "C142_no_map_refuted",
    "C142_average",
    "C142_components"
   ],
   "note": "Proved when the map of the faces and the patches of the boundary are those of the case. Refuted: too few values, as for a field of the other type, are read past their end (C142_past_end_refuted); without the map of faces a patch of two faces is an exception (C142_no_map_refuted); cells of no patch have no value for vector fields, and then no vertex has one (C142_no_value_refuted). Writing of fields does nothing in the code."
  },
  {
   "property": "C143",
   "status": "partial",
   "theorems": [
    "C143_options_partial",
    "C143_overwrite_refuted",
    "C143_points_only_refuted",
    "C143_pairs_partial",
    "C143_null_refuted",
    "C143_names_partial",
    "C143_last_name_refuted"
   ],
   "note": "Refuted: WritePointsOnly sets the overwriting (C143_overwrite_refuted); one null mesh is dereferenced (C143_null_refuted); the place after the last patch is out of bounds (C143_last_name_refuted). The rest proved."
  },
  {
   "property": "C144",
   "status": "partial",
   "theorems": [
    "C144_short_partial",
    "C144_large_refuted",
    "C144_long_refuted",
    "C144_long",
    "C144_polygon_refuted",
    "C144_pids",
    "C144_low_pids_refuted"
   ],
   "note": "Proved for fields of eight characters, labels of at most eight digits and coordinates below a million: six digits are kept (C144_short_partial). Refuted: coordinates from 10^8 are cut to other numbers (C144_large_refuted); a file with fields of sixteen characters can not be read (C144_long_refuted); after a polygon faces take the labels of those before (C144_polygon_refuted); parts below -1 are written as they are not allowed (C144_low_pids_refuted). C144_long: what a file in the long format holds for every point."
  },
  {
   "property": "C145",
   "status": "partial",
   "theorems": [
    "C145_ignored",
    "C145_last_refuted",
    "C145_exponent",
    "C145_letter_refuted",
    "C145_blank_refuted",
    "C145_short_line_refuted",
    "C145_bar_refuted"
   ],
   "note": "Refuted: of two cards that end a file with no end of line the second is lost (C145_last_refuted); an exponent after the letter E is lost (C145_letter_refuted); blank fields and short lines are exceptions (C145_blank_refuted, C145_short_line_refuted); a bar that ends the file is read though not enabled (C145_bar_refuted). The rest proved; RBE2 and RBE3 are not modelled."
  },
  {
   "property": "C146",
   "status": "partial",
   "theorems": [
    "C146_convert",
    "C146_one_mode_partial",
    "C146_written_refuted",
    "C146_absent",
    "C146_types"
   ],
   "note": "Proved for converters, and for readers and writers with the same file for both (C146_one_mode_partial). Refuted: the file of a writer is restored from the one to read (C146_written_refuted). The tolerance and options of the base class are not modelled."
  },
  {
   "property": "C147",
   "status": "partial",
   "theorems": [
    "C147_shifted",
    "C147_once",
    "C147_wraps_refuted",
    "C147_reference"
   ],
   "note": "Proved when the sums are ints. Refuted: the reference has no maximum, and past the ints the parts of the cells are not those listed (C147_wraps_refuted)."
  },
  {
   "property": "C148",
   "status": "partial",
   "theorems": [
    "C148_patches",
    "C148_linked",
    "C148_dual_refuted",
    "C148_copy_refuted",
    "C148_internal_refuted",
    "C148_pids_refuted"
   ],
   "note": "C148_patches: the three patches, for all meshes and selections; C148_linked. C148_dual_refuted: the dual flag is never read. C148_copy_refuted: a copy shares the selection. C148_internal_refuted: a face of the cut with all its vertices on the boundary patch is missing. C148_pids_refuted: the PIDs of deleted cells stay."
  },
  {
   "property": "C149",
   "status": "partial",
   "theorems": [
    "C149_settings",
    "C149_tolerance",
    "C149_again_refuted",
    "C149_surface",
    "C149_target_refuted",
    "C149_arguments_refuted",
    "C149_xml",
    "C149_back"
   ],
   "note": "C149_settings, C149_tolerance, C149_surface, C149_xml, C149_back. C149_again_refuted: a name keeps its first type. C149_target_refuted: the constructor refuses a volume or a curve. C149_arguments_refuted: a negative tolerance is kept, a null target drops the files, a null geometry is dereferenced. C149_back has the tolerance as its text of six digits says."
  },
  {
   "property": "C150",
   "status": "partial",
   "theorems": [
    "C150_extract",
    "C150_path",
    "C150_bare_refuted"
   ],
   "note": "C150_extract, C150_path. C150_bare_refuted: a file name without a directory is taken as the directory."
  },
  {
   "property": "C151",
   "status": "partial",
   "theorems": [
    "C151_between",
    "C151_border_refuted"
   ],
   "note": "C151_between: the vertices of the faces between the part and the rest, among which all those asked for. C151_border_refuted: those on the border of the geometry are returned too."
  },
  {
   "property": "C152",
   "status": "partial",
   "theorems": [
    "C152_carried",
    "C152_again_refuted",
    "C152_incoherent_refuted",
    "C152_cloud_refuted"
   ],
   "note": "C152_carried. C152_again_refuted: a second execution always raises an exception. C152_cloud_refuted: on clouds a field not on points is left on the whole geometry. C152_incoherent_refuted: an incoherent field is emptied."
  },
  {
   "property": "C153",
   "status": "partial",
   "theorems": [
    "C153_read",
    "C153_unsupported",
    "C153_no_faces",
    "C153_few_refuted",
    "C153_outside_refuted"
   ],
   "note": "C153_read for all grids, C153_unsupported, C153_no_faces. C153_few_refuted: in VTK's own convention a grid with fewer face entries than cells is refused although it has the faces. C153_outside_refuted: a place beyond the points is read as vertex 0."
  },
  {
   "property": "C154",
   "status": "partial",
   "theorems": [
    "C154_back",
    "C154_same",
    "C154_orphans_refuted",
    "C154_unknown"
   ],
   "note": "C154_back for all meshes and parts written, C154_same, C154_unknown. C154_orphans_refuted: vertices of no cell are lost, so a cloud without cells is read back empty."
  },
  {
   "property": "C155",
   "status": "partial",
   "theorems": [
    "C155_back",
    "C155_parts_refuted",
    "C155_polyhedron_refuted"
   ],
   "note": "C155_back for all meshes. C155_parts_refuted: all parts of the volume become 0. C155_polyhedron_refuted: after one cell of another type no cell at all is written, though the zone counts them."
  },
  {
   "property": "C156",
   "status": "partial",
   "theorems": [
    "C156_back",
    "C156_points_refuted",
    "C156_polygon_refuted"
   ],
   "note": "C156_back for all boundaries. C156_points_refuted: faces over the vertices of a patch of points that were not in it are taken too. C156_polygon_refuted: in place of a cell that is no triangle nor quadrilateral, the first surface element of the file is in the patch."
  },
  {
   "property": "C157",
   "status": "partial",
   "theorems": [
    "C157_elements",
    "C157_ten_refuted",
    "C157_mixed_refuted",
    "C157_line_refuted",
    "C157_zones_refuted",
    "C157_interface_refuted"
   ],
   "note": "C157_elements for all files of one zone with linear sections. C157_ten_refuted: high order elements are cut in pieces, past the end of the data. C157_mixed_refuted: types in mixed sections are less by one. C157_line_refuted: line elements are not numbered. C157_zones_refuted: ids of cells collide between zones, the second is lost. C157_interface_refuted: a patch of elements at the interface between zones throws."
  },
  {
   "property": "C158",
   "status": "partial",
   "theorems": [
    "C158_file",
    "C158_given",
    "C158_twice",
    "C158_nothing_refuted",
    "C158_type_refuted",
    "C158_copy_refuted",
    "C158_stale_refuted",
    "C158_processes_refuted"
   ],
   "note": "C158_file, C158_given, C158_twice for all histories. C158_nothing_refuted and C158_type_refuted: undefined behaviour when nothing was given, or data of another type. C158_copy_refuted: copies have no data. C158_stale_refuted: after a reading the data of the file replace those given. C158_processes_refuted: if the file is not there process 0 throws and the others wait for ever."
  },
  {
   "property": "C159",
   "status": "partial",
   "theorems": [
    "C159_through",
    "C159_silent_refuted",
    "C159_binary_refuted"
   ],
   "note": "C159_through for all settings. C159_silent_refuted: nothing is said when the file cannot be written. C159_binary_refuted: csv turns binary off for good."
  },
  {
   "property": "C160",
   "status": "partial",
   "theorems": [
    "C160_back",
    "C160_file_refuted",
    "C160_order"
   ],
   "note": "C160_back for the four classes, C160_order. C160_file_refuted: a GenericInput that does not read when it is written loses directory and name of its file."
  },
  {
   "property": "C161",
   "status": "partial",
   "theorems": [
    "C161_back",
    "C161_name_refuted"
   ],
   "note": "C161_back for location, identifiers and values. C161_name_refuted: the name is always lost."
  },
  {
   "property": "C162",
   "status": "partial",
   "theorems": [
    "C162_constant",
    "C162_linear",
    "C162_plane_refuted",
    "C162_small_refuted"
   ],
   "note": "C162_constant, C162_linear for all meshes. C162_plane_refuted: neighbours in an oblique plane make a division by zero. C162_small_refuted: distances less than 1e-12 are taken for zero, and every slope is wrong."
  },
  {
   "property": "C163",
   "status": "partial",
   "theorems": [
    "C163_linear",
    "C163_given",
    "C163_plane_refuted",
    "C163_turned",
    "C163_border",
    "C163_neumann",
    "C163_dirichlet"
   ],
   "note": "C163_linear, C163_turned, C163_border, C163_neumann, C163_dirichlet for all interfaces and fields. C163_given: exactly when it is given. C163_plane_refuted: it is not when the centre of a cell is in the plane of the interface."
  },
  {
   "property": "C164",
   "status": "partial",
   "theorems": [
    "C164_cell",
    "C164_ghost",
    "C164_linear",
    "C164_balance",
    "C164_part_refuted"
   ],
   "note": "C164_cell, C164_balance, C164_linear, C164_ghost. C164_part_refuted: a cell with only some interfaces given has a stencil, that is wrong."
  },
  {
   "property": "C165",
   "status": "partial",
   "theorems": [
    "C165_best",
    "C165_steep",
    "C165_side",
    "C165_within",
    "C165_small_refuted"
   ],
   "note": "C165_best (values that differ less than the side is long), C165_steep (more), C165_side and C165_within for all triangulations, beyond the tolerance 1e-12 of the code. C165_small_refuted: sides shorter than 1e-3 are only left from their ends, so the distance is too long."
  },
  {
   "property": "C166",
   "status": "partial",
   "theorems": [
    "C166_ends",
    "C166_reached",
    "C166_others",
    "C166_final",
    "C166_one",
    "C166_first",
    "C166_several_refuted"
   ],
   "note": "C166_ends, C166_reached, C166_others, C166_final for all seeds, C166_one and C166_first for one seed. C166_several_refuted: with neighbouring seeds a vertex gets a distance less than the straight distance to each of them."
  },
  {
   "property": "C167",
   "status": "partial",
   "theorems": [
    "C167_back",
    "C167_names",
    "C167_ids",
    "C167_nothing_refuted",
    "C167_strategy_refuted",
    "C167_blank_refuted"
   ],
   "note": "C167_back, C167_names, C167_ids for all texts. C167_nothing_refuted: without smoothing ids a number that is not set is read. C167_strategy_refuted: the strategy GETALLNOBLANKS becomes GETALL. C167_blank_refuted: names with blanks are split."
  },
  {
   "property": "C168",
   "status": "partial",
   "theorems": [
    "C168_back",
    "C168_tolerance_refuted",
    "C168_mode_refuted",
    "C168_partly",
    "C168_names"
   ],
   "note": "C168_back, C168_names, C168_partly for all settings. C168_tolerance_refuted: tolerances below half a millionth are lost. C168_mode_refuted: a blank IOMode gives an undefined mode."
  },
  {
   "property": "C169",
   "status": "partial",
   "theorems": [
    "C169_found",
    "C169_none",
    "C169_interior",
    "C169_missed",
    "C169_any",
    "C169_interior_refuted"
   ],
   "note": "C169_found, C169_none, C169_any for all trees; C169_interior and C169_missed say what interiorOnly gives. C169_interior_refuted: the estimate uses the boxes of ghost cells too, so that an interior cell within the distance is missed when a ghost is nearer."
  },
  {
   "property": "C170",
   "status": "partial",
   "theorems": [
    "C170_shared",
    "C170_scattered",
    "C170_serial",
    "C170_rows",
    "C170_radius_refuted",
    "C170_rows_refuted"
   ],
   "note": "C170_shared, C170_scattered, C170_serial: the closest cell of all the processes is found in spite of C169_interior_refuted. C170_rows: the rows are enough. C170_radius_refuted: the radius is not used. C170_rows_refuted: more rows than points are searched, the count adds coordinates to points."
  },
  {
   "property": "C171",
   "status": "partial",
   "theorems": [
    "C171_union",
    "C171_only",
    "C171_none",
    "C171_lost_refuted",
    "C171_places_refuted",
    "C171_order_refuted"
   ],
   "note": "C171_union when each identifier is of one vertex and one cell over all the surfaces; C171_only, C171_none without conditions. C171_lost_refuted: cells with an identifier already in use are lost, as for surfaces numbered each by itself. C171_places_refuted: with vertices of the same identifiers the cells are drawn in other places. C171_order_refuted: the union then depends on the order of the set."
  },
  {
   "property": "C172",
   "status": "partial",
   "theorems": [
    "C172_owner_neighbour",
    "C172_border",
    "C172_others",
    "C172_orientation_refuted"
   ],
   "note": "C172_owner_neighbour, C172_border, C172_others for all positions, with triangles of the same orientation. C172_orientation_refuted: with a neighbour of the other orientation the normal goes away from it."
  },
  {
   "property": "C173",
   "status": "partial",
   "theorems": [
    "C173_stream",
    "C173_names",
    "C173_first",
    "C173_conditions",
    "C173_conditions_refuted",
    "C173_lists_refuted"
   ],
   "note": "C173_stream for all maps; C173_names, C173_first for zones and names. C173_conditions says what the other processes have. C173_conditions_refuted, C173_lists_refuted: the kinds of list are received in the map of the conditions, so that conditions are overwritten and kinds are lost on all processes but the first."
  },
  {
   "property": "C174",
   "status": "partial",
   "theorems": [
    "C174_unique",
    "C174_never_reused",
    "C174_copied",
    "C174_assigned",
    "C174_swapped",
    "C174_files",
    "C174_forced_refuted",
    "C174_files_refuted"
   ],
   "note": "C174_unique, C174_never_reused for all histories without setId; C174_copied, C174_assigned, C174_swapped say what is taken and what stays; C174_files for blocks of the same name. C174_forced_refuted: setId can give an identity that a later block gets too. C174_files_refuted: blocks of different names can write the same file, the number being appended without a separator."
  },
  {
   "property": "C175",
   "status": "proved",
   "theorems": [
    "C175_log",
    "C175_too_late"
   ],
   "note": "C175_log, C175_too_late for all histories."
  },
  {
   "property": "C176",
   "status": "partial",
   "theorems": [
    "C176_own",
    "C176_count",
    "C176_leak_refuted"
   ],
   "note": "C176_own for all histories; C176_count gives the number of communicators taken. C176_leak_refuted: they are never freed, neither by the destructor nor by the assignment, and grow without bound."
  },
  {
   "property": "C177",
   "status": "partial",
   "theorems": [
    "C177_out",
    "C177_copies",
    "C177_typed",
    "C177_in",
    "C177_in_left",
    "C177_reflexive_refuted",
    "C177_sound_refuted",
    "C177_unchanged_refuted"
   ],
   "note": "C177_out, C177_copies, C177_typed for all ports. C177_in, C177_in_left say what the comparison of input ports does. C177_reflexive_refuted, C177_sound_refuted, C177_unchanged_refuted: it assigns (=) the obligation and the family instead of comparing them."
  },
  {
   "property": "C178",
   "status": "proved",
   "theorems": [
    "C178_magnitude",
    "C178_zero",
    "C178_again"
   ],
   "note": "C178_magnitude, C178_zero, C178_again for all fields with one value for each identifier."
  },
  {
   "property": "C179",
   "status": "partial",
   "theorems": [
    "C179_selections",
    "C179_boxes",
    "C179_primitives",
    "C179_absent",
    "C179_radius",
    "C179_limits_refuted",
    "C179_axes",
    "C179_axes_refuted"
   ],
   "note": "C179_selections, C179_boxes, C179_primitives, C179_absent, C179_radius, C179_axes for all settings. C179_limits_refuted: Primitive reads InfLimits but does not write it. C179_axes_refuted: Primitive throws if an axis of RefSystem is not given."
  }
 ]
}