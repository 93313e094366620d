{
 "C01": "Full statement.",
 "C02": "Refuted: adding the last member of a cycle of three blocks recurses forever. Holds for acyclic pins.",
 "C03": "Refuted when two or more parents are moved; holds when none has to be moved.",
 "C04": "Full statement; the throw of a single block is in C12.",
 "C05": "Refuted by pins created after the insertion; holds for pins created before.",
 "C06": "Distinct ids, exact deletion and clone content proved; refuted for ids assigned after a clone.",
 "C07": "Full statement, including the lazy construction of ports.",
 "C08": "Full statement for histories of addPin.",
 "C09": "Refuted (stale indices when a port has two links to the same block); holds when each port has at most one link to the other block.",
 "C10": "Refuted: a missing pin still decrements the tables, and the wrong half-pin is removed when a port feeds two ports of a block; holds for a pin that is the only one between its ports and the two blocks.",
 "C11": "Refuted: non-termination after four addPin calls, dangling link after two; holds when each port has at most one link per peer.",
 "C12": "Full statement.",
 "C13": "Full for output ports; refuted for input ports (the code tests the output table), holds when the name is used on both sides or none.",
 "C14": "Full statement for every port type of the library and every history of executions; a second theorem covers any user type that round-trips.",
 "C15": "Refuted for a map nested in a map (the reading loop reuses its key and value variables and reading a map does not clear it); holds for every other nesting, into any destination.",
 "C16": "Refuted: entries already in the destination map survive; the exact merged content is proved, and replacement holds for an empty destination.",
 "C17": "Same pins and same tables for every visiting order, and no wrong pin for any file: full. The order of links on a port is refuted for more than ten connections (section titles are visited as strings) and proved for creation order.",
 "C42": "Full statement.",
 "C18": "Full statement, debug and release builds.",
 "C19": "Full when each creator is given once; refuted when the same creator is registered again for its name (use after free).",
 "C20": "Full statement; addresses may be reused by the allocators. Pointers held by the pointed objects are not modelled.",
 "C43": "Refuted when the sender's getter returns the only owner, and when a pointer is read back into its only owner; holds while another owner exists.",
 "C44": "Refuted in release builds; holds in debug builds and for registered names.",
 "C45": "Refuted: the result is always one more than the number of creators.",
 "C21": "Full statement (an UNDEFINED location has no elements).",
 "C22": "Proved with keepOrder, and without for lists without duplicates; refuted for a repeated id (insert throws).",
 "C23": "Full statement.",
 "C24": "Cell to point: full statement for vertices distinct from the centroids. Point to cell: proved when every vertex of a cell has a value; refuted otherwise (at() throws for the whole call) and for a vertex at the centroid (division by zero).",
 "C46": "Both checks together and the ids check characterised; refuted for an empty field with UNDEFINED location, and the resized copy loses the name.",
 "C47": "Full statement.",
 "C48": "Proved for a valid geometry; refuted for a null geometry (dereferenced).",
 "C49": "Refuted: the gradient term is multiplied by the value, and maximum keeps the largest value. The computed formula and the bounds for zero gradients are proved.",
 "C50": "setDataLocation proved; intIsValidLocation refuted (accepts every integer).",
 "C51": "Full statement for interfaces with vertices, distinct from the centroid.",
 "C30": "Basic and local coordinates: full. World to local and back: proved away from the plane of the edge of a wedge, refuted there. Local to world and back: proved where the parameters of a point are unique, refuted on the axis of a cylinder.",
 "C31": "Full for cells (one by one and with the search tree), for lists of points and for tessellations. Refuted for the points of a geometry: the exclusion starts from the cell ids; proved when these are the vertex ids.",
 "C32": "Three axes: full. One axis: proved whenever the call does not divide by zero, and it divides by zero exactly for an axis along the next world axis (refuted).",
 "C33": "Full statement.",
 "C52": "Soundness for every shape and tree. No cell is lost by cubes, wedges with world axes, whole cylinders and spheres, and no point by cubes and wedges; refuted for sectors of cylinder, turned wedges and, for points, turned cylinders.",
 "C53": "Soundness full; completeness for whole turns and for unique parameters, refuted on the axis of a marked sector.",
 "C54": "Spans and infima: full; the periodic azimuth is refuted.",
 "C25": "Full statement, for points, cells and the lists of all of them.",
 "C26": "Validity and containment proved for every cell returned; a cell is returned for every point of the mesh and every point whose coordinate quotients fit an int; refuted far from the mesh (undefined conversion to int).",
 "C27": "Full statement for doubles, vectors and integers; also exact on affine data and local to the cell. Points out of the int range are in C26.",
 "C28": "Full statement, with setMesh.",
 "C55": "Refuted: setInfLimits of the polar angle of a sphere changes the span and leaves isBuilt() true; holds for all histories without that call.",
 "C56": "Refuted: assigning a mesh without shape keeps the old shape; holds in all other cases.",
 "C57": "Refuted: the default cylinder of setShape has its radius and height from uninitialised memory; holds in all other cases.",
 "C58": "Full statement.",
 "C59": "Full statement. The coordinate types are not kept (not claimed).",
 "C60": "Full statement.",
 "C29": "Numbers 0..N-1, all used, consistent both ways, in order, one point in the coordinate lists for each; termination and bounds of the loop; all proved for every lattice. 'Only if the same point' is proved for boxes, cylinders that are periodic only when whole, spheres with non periodic azimuth (C29_shared_partial) and refuted for the default sphere (m_ny-1 is joined instead of m_ny), the wedge (joined along the edge instead of across) and sectors of cylinders.",
 "C61": "Proved for boxes and tubes and, for every shape, away from axis, seam, poles and edge; refuted on the axis of the default cylinder, the seam of the default sphere and the edge of the default wedge.",
 "C62": "Refuted for every built lattice: the count is kept and the coordinates are read out of bounds; a later build makes the numbers valid.",
 "C34": "Proved for unit directions (all that setDirection produces): law with filter, rigidity, fixed axis, additivity over any list of executions of one object, rest. Refuted for setAxis (and the port of the axis), which keeps the length of the direction: distances change and axis points move.",
 "C35": "Proved for alpha >= 0 and D > 0; foot, distance from the axis and axis points proved for every alpha and D <> 0. For alpha < 0 the cap picks the larger angle: exact law C35_negative, refutation C35_negative_refuted.",
 "C36": "Scale (given centre and mean point), translate, and rest under a null filter proved without restriction. Bend proved for laws whose degree 0 polynomials are null and frames set by the setters; refuted for constant laws (skipped though documented) and for an origin given through the port (the local flag is not set).",
 "C37": "Without filter: proved for any number of executions. With filter on a surface: exact law of n executions (factor*(f+...+f^n)*d), so right for one and refuted for two. Scalar input along the normals proved for one execution, with the state kept for the next. Refuted: filter on a geometry that is not a surface, displacements of another geometry accepted when a filter is set, exception for a filter without displacements. Vertex normals are an arbitrary function of the vertices.",
 "C63": "Proved if vertices were only moved or removed; refuted for added vertices: the unit filter made by the first execution is taken for a user filter and completed with 0.",
 "C64": "Exact law for n executions (filter to the n-th power); right for one, refuted for two.",
 "C38": "Proved for end positions inside the vector and start positions inside or beyond it; safety for all. Refuted for an end at or beyond the size (last element lost, or the whole vector for the last start) and for filling with a negative start (comparison of a negative int with size_t: nothing is filled).",
 "C65": "Proved; undefined result when no policy is set.",
 "C39": "Full statement, for any number of ranks, any partition and any order of arrival of the messages. The exchange lists of the patch (bitpit) are an assumption, spelled out in GhostSpec.v.",
 "C66": "Vertices proved. Refuted for getMapCellInv without ghosts, which looks cells up by their number instead of their id; right when numbers are ids.",
 "C67": "Proved for every history of calls on one object, for objects at construction and for the object swap is called on. Refuted for the argument of swap (numbering and point connectivity of the other geometry are kept), for copies (which share the patch) and for the clean of a distributed geometry which deletes ghost cells.",
 "C68": "Statuses, totality and unchanged geometry proved for every history. Refuted for the numbering after resetPatch or reset: it is never built again.",
 "C69": "Proved for objects made by type, through every history which does not empty the patch of a point cloud. Refuted for the constructor from lists (the test is inverted), for copies and for emptied point clouds.",
 "C70": "Full statement for built lattices; meshes without shape are in C56.",
 "C40": "Mixture, rigid translation, null displacements, bounds, vertices outside: for solid shapes, positive weights and points whose local coordinates are in the box; missing the shell of 1e-12 the selection adds. Refuted: apply(point) reads the nodes in the wrong order, out of the list; an unclamped direction reads out of the list in the shell.",
 "C71": "Full statement for clamped shapes with positive weights.",
 "C72": "Full statement for clamped shapes with positive weights.",
 "C73": "Totality, degrees, displacements and weights set since the last build proved; refuted: weights built before are lost at the next build; a list of displacements of a wrong size is stored and read out of bounds.",
 "C41": "The solver of the linear system and the greedy algorithm (bitpit::RBF) are oracles; exactness at nodes is claimed under the assumption that the oracle solves the system. C41_null_refuted and C41_compact_refuted show where the claim fails.",
 "C74": "Unclamped directions are in C40 only. Nodes closer than 2e-12 in local coordinates are excluded (C40 shows why).",
 "C75": "Continuity is in local coordinates, and in world coordinates for boxes; at the axis of a cylinder or the poles of a sphere local coordinates are not continuous, and nothing is claimed there. The seam of a sphere is not claimed: its nodes are joined wrongly (C29_sphere_refuted).",
 "C76": "Negative lists, lists with nodes from a geometry, partial fields and fields with listed nodes are refuted: the radii asked for are silently not used.",
 "C77": "Scalar fields with listed nodes, lists with nodes from a geometry, missing displacements and a refused execution followed by apply are refuted.",
 "C78": "True when each node has at most one neighbour (C78_pairs_partial); with three coincident nodes two of them are left (C78_triple_refuted).",
 "C79": "Histories cover addVertex, addConnectedCell, addCell, deletions, setPID (list, and map covering the cells), setPIDCell, setPIDName, resyncPID, setTolerance and clone, with identifiers in the range of int. Refuted: a map on some cells only makes the identifiers of the others unlisted; an identifier outside int is listed but no cell is extracted for it; identifiers no cell has stay listed until resyncPID; clone does not copy the tolerance.",
 "C80": "The check and the constructor are characterised exactly. Refuted: polygons of two vertices are accepted; the type of the element is not checked against the mesh; a polygon of three vertices written as documented is read as a quad; a null connectivity is dereferenced.",
 "C81": "Proved for every mesh without polyhedra (suffix _partial: polyhedra are missing because the property fails for them). Refuted for polyhedra: the last face is replaced by zeros and the cell is lost.",
 "C82": "Exact for surfaces, volumes and curves. Refuted for clouds: both lists are always empty although the cells of a cloud are vertices.",
 "C83": "Proved for geometries reached by any history of API calls whose cells are readable and whose vertices exist, when no two vertices are within the tolerance (the deletion of coincident vertices, bitpit's, is asked to leave such a geometry alone). An id that is not in the geometry is undefined behaviour (C83_unknown).",
 "C84": "Partial: proved for requests with non-negative identifiers and deactivations other than of 0, and for all of them. Refuted: deactivating 0 deactivates all; a negative identifier other than -1 activates none; one after all leaves one; deactivating one after all has no effect; nor has any deactivation after an execution; identifiers given later are not seen; clouds are ignored.",
 "C85": "Partial: the selection is exact, on clouds too; the dual flag is ignored (refuted).",
 "C86": "Partial: exact for a plane given by point and normal, by one call or two, inside out or not; four coefficients only with a normal of length one (the constant is not scaled, refuted); setOrigin and setNormal have no effect after an execution, clouds without cells are undefined behaviour, the tolerance is not copied (refuted).",
 "C87": "Partial: cells, vertices and identifiers proved without polyhedra; disjointness for non-negative identifiers; names of the last geometry. Refuted: polyhedra are lost, names of the others are overwritten, negative identifiers collide, an empty list of identifiers is undefined behaviour with the reassignment (C87_defined), volumes, clouds and curves cannot be stitched.",
 "C88": "Proved for triangles, quadrilaterals and polygons (cells, ids, vertices, part identifiers, vector area, both modes of the block; what is refused). Refuted: structured PIXEL cells, whose vertices are numbered by rows, become overlapping triangles.",
 "C89": "Partial: proved for elements with a fixed number of vertices and exact comparison of coordinates, up to the place of the vertices. Refuted: healthy polygons are deleted, pixels are crossed, polyhedra change type, collapsed prisms are twisted, vertices collapsed in two cells in opposite orders are exchanged, parts of deleted cells stay listed.",
 "C90": "Proved for all meshes that are not empty, given right adjacencies (computed by the bitpit library). Refuted: on a mesh without cells decomposeLoop throws.",
 "C91": "Proved (serial build), given right adjacencies and interfaces from the bitpit library. The names of the parts are not inherited (stated in C91_mesh).",
 "C92": "Proved for cells with and without seeds and for vertices with seeds, given right distances from the tree search. Refuted: without seeds the band of vertices is always empty (a local variable hides the candidates); a seed of the band given twice makes the call throw.",
 "C93": "Proved, for sound geometries and edges given by the bitpit library. Refuted: asking for the connections of a vertex without edges fails an assertion.",
 "C94": "Proved: the values of both classes, with an exception exactly when a field lacks a value on an element its sub-patch shares with the target; independence of the order for scalars; removal when another field is left. Refuted: order for vectors of equal length; removing the only field reads the last element of an empty vector; addData follows a null geometry when the location agrees and accepts a field of another location (the guard has && for ||), whose values are then given to elements of the wrong kind.",
 "C95": "Proved for the three modes on points and cells (by id on interfaces too), the set of cells near a geometry being a parameter. Refuted: by mapping, values are taken by equal id, not by place, so a target numbered in another way gets the values of other points; the mode written in a configuration file is not read back. Missing: interfaces in the modes by part identifier and by mapping.",
 "C96": "Proved: first by name or geometry, mean for scalars and vectors-like additions, first for labels, order and filter of the list. Refuted: the documented first related element is a mean for scalars; the mode by mapping cannot be given by a configuration file, where it is read as a bool.",
 "C97": "Proved for all trees of nested non-empty boxes and all tolerances. Refuted (C97_root_refuted): extractTarget on a target tree of one node takes its cells at any distance. Refuted (C97_exact_refuted): whole leaves are taken, also cells of them that are farther than the tolerance. Missing: rounding of the box tests.",
 "C98": "The closest-cell search and the projection weights of bitpit are parameters with a specification. Refuted: nothing within the radius gives an infinite signed distance instead of the documented maximum double (C98_lost_refuted); projectPoint does not enlarge the radius and gives NaN coordinates (C98_enlarge_refuted); the radii of the caller are changed (C98_radii_refuted). Missing: rounding, points nearer than the tolerance where the interpolated normal is zero.",
 "C99": "Segments and triangles are proved for every tolerance with explicit bounds, polygons for strictly convex ones whose fan triangles are not degenerate. Refuted: PIXEL vertices are in row order, so points of the square are refused (C99_pixel_refuted); in a polygon that is not convex points of the notch are accepted (C99_concave_refuted); distancePointPolygon skips the triangle of the last side (C99_distance_refuted). The closest cell of bitpit is a parameter. Missing: rounding, the bound with tolerance for polygons.",
 "C100": "Proved over a semantics of blocking sends and receives in which the library may or may not copy each message: no deadlock (even without any copy), an explicit bound on the steps, results independent of the schedule. A gather is modelled as sends to the root. Refuted: with shared points and a surface every process has whole the distance has no sign (C100_whole_shared_refuted); the radius of the search of shared points is ignored (C100_radius_refuted). The searches and the minimum of bitpit are parameters. Missing: rounding, failures of processes.",
 "C101": "Proved for any number of rounds allowed >= 2 (1000 in the code). The distance with sign is a parameter with a specification. Missing: rounding; points nearer than the tolerance, where the normal is the one of the surface (see C98).",
 "C102": "Data read by process 0 reach all processes (types without a map in a map, see C15). Refuted for the CGNS boundary conditions: the kinds of the lists are read into the map of the condition types, so types are overwritten and kinds are lost on processes other than 0; zones and names are right. Collecting fields is right for fields without geometry; a field linked to a geometry makes process 0 use a pointer of another process. RBF nodes are the same on all processes when processes agree on common ids; otherwise each keeps its own (refuted). A radius field that does not cover all nodes overruns the list (refuted).",
 "C103": "Integers, doubles (six digits, relative error below 5/10^6, exact when they have six digits), arrays and non-empty fields named by one word (integers, doubles, arrays) are read back, whatever the variables held. Refuted: the last element of every vector is lost (the reader fails at the end of the file and drops it), a one-word string is never read back, a name with a space loses the values, an empty field loses name and location, the name is always lost in binary files, a field without name in a text file is misread.",
 "C104": "Displacements, labels, templates and points of clouds are read back. Fields are read back when the labels are 0, 1, 2, ... in the order of the file (partial). Refuted otherwise: values are stored at the position of the label in the file while the vertices keep their labels, so a label not below the number of points never has a value, and the values of two points can be exchanged; a file written by processes that share a point cannot be read (an id is inserted twice). The name TEMPLATE_... is computed and never used: a template is written over the file.",
 "C105": "Images, data, ids and symmetry are proved for a plane with a normal of length one, or given by point and normal. Refuted: with force set, which is the default, every point is mirrored and the side chosen has no effect; the constant of a plane given by coefficients is not divided by the length of the normal, so no point is mirrored where it should; after an execution the ports of point and normal have no effect, and after clear nothing is mirrored; without a plane the data are replaced with zeros.",
 "C106": "Rotations are proved for a direction that is not null. Refuted: the third axis of an object whose axes were not set is null; without a direction axes are shrunk by the cosine; directions of translation are not normalised (the test is the wrong way round), so the point moves by the value times the length of the direction, and the default null direction makes the result NaN even for a null translation. Translation proved for directions of length one (partial).",
 "C107": "Proved with LAPACK assumed right on the matrix computed. The covariance of surfaces is the integral over the triangles (Coquelicot's integral; no axioms beyond the standard ones). Refuted: the matrix of clouds starts from memory not initialised and counts the points of a geometry once more for each geometry after it, so it depends on the order of addresses; axes given to AABBox that are not normal one to the other give a frame whose spans do not reach all vertices, parallel ones no box; a geometry without points gives negative spans. Covariance of clouds proved for one geometry and null memory (partial).",
 "C108": "Proved for fields on the points of the geometry, vertices of the surface and points within 10^12 of the constraints, with the search of the nearest cell assumed right for the radius it is given. Refuted: a vertex of no cell that is not displaced violates by the greatest double; a field not set, or on cells, is an error, not the null displacement, and a field of another geometry with the same ids is used silently; the allowed side is that of the middle of the box, so a geometry around a constraint violates it without being deformed.",
 "C109": "Proved on one process with edges known by their ends and at most two faces on an edge (only needed when not all cells are active). Refuted: pixels in the ternary refinement, and the documented negative sub-step of the smoothing, that never happens when the object executes. Coarse and refined patches, ghosts and ids of cells are left out.",
 "C110": "Proved for one process and any correct solver (one exists: C110_nonvacuous_solver, by the axiom of choice of the library). Existence by the supremum of the fields below, uniqueness by the maximum principle. Refuted: a relaxation of zero, which is allowed, may leave vertices undetermined; without conditions, of which the code only warns, every constant solves the system.",
 "C111": "Any number of steps without slip walls, under the hypothesis that linked vertices are farther apart, along an axis, than the displacements may differ. Missing: slip walls in several steps. Refuted: the normal of the slip plane is an average that is not normalized; a slip reference surface with another number of vertices than the walls makes the code read out of bounds.",
 "C112": "Closed forms for both types of damping. Refuted: the inner distance is zero by default and the code divides by it.",
 "C113": "Refuted: vertices on two patches and two fields on one patch take a value that depends on the order of a set of pointers; from the second scalar condition on, the address kept for the first is that of memory given back.",
 "C114": "Proved for any candidates with any sensitivities; ends exactly when the candidates are in more places than the points asked. Refuted: the grid engine never ends when one point is asked, or any number on surfaces narrow for it in two directions (a cube and four points); with sensitivities the real distances may be below the one reported.",
 "C115": "Proved, except not-a-number values.",
 "C116": "Proved for any distance that is zero exactly on the vertices it is from (how it is computed is not modelled), if vertices of positive sensitivity are enough. Refuted: otherwise vertex 0 is repeated, or looked for where there is none; with no points asked one is given.",
 "C117": "Repeatability proved for any generator; number of points, engine, seed and barycentre are restored. Refuted: the signature is written where the flag is read and is never restored; a distribution that was not fixed comes back fixed.",
 "C118": "Proved for an object just made, whatever the mesh, for tolerances that an object without measures meets; also on several processes. Refuted: for faces on the border that fail no cell is written out; the direction between cells with the same centre is not a number and passes the check.",
 "C119": "Refuted: the indicators are never reset. Once a mesh has been rejected no mesh is reported good any more; proved exactly: the last status is good when all the meshes so far are acceptable. Executing again on the same mesh changes nothing.",
 "C120": "Volumes, ratios and validity are restored. Refuted: angles are written in radians and read as degrees; the same with the default, when the option is empty.",
 "C121": "Proved with any choice among the longest segments, exactly when the execution is defined. Refuted: with no points, after the warning, the behaviour is undefined (the top of an empty queue, or the element before the first), also with the default settings; so it is with one point and cells asked.",
 "C122": "Refuted: the number of cells asked is raised by each execution and stays so; the cells are those needed by the longest list of points so far (proved exactly).",
 "C123": "Proved.",
 "C124": "The chain is proved for every count from 1 (C124_points), the ends with two points too. Refuted: a direction that is not of length one gives a segment of another length (C124_length_refuted; with a unit direction it is right, C124_length_partial); counts below one are accepted and give no segment (C124_no_cells_refuted: 0 divides by zero, -1 an empty mesh, less throws). Projection is a function of the point; partition of the result is not modelled.",
 "C125": "Refuted for every segment of the kind: the six numbers are written with nothing between them, so they are read as one (C125_segment_refuted, C125_read_back). Text with spaces is read as written (C125_read), for all integers.",
 "C126": "Proved for non-empty clouds whose coordinates with the support are within the range of doubles. With no node at all the box holds no point (C126_empty_refuted).",
 "C127": "Projection is a function of the point, the same for all vertices. Trees, partition and the update of the mesh after are not modelled.",
 "C128": "Proved for the first process with any history, for serialization on all processes. Refuted: a map given by the user is checked in its size only (C128_custom_refuted); on processes but the first the map left from the last execution is used again (C128_other_processes_refuted). METIS is assumed to give one process for each vertex; what bitpit does with the map is not modelled.",
 "C129": "The graph is found exactly: neighbours with identifier 0 are dropped. So it is right if no cell has identifier 0 (C129_graph_partial), and never if cell 0 has a neighbour (C129_zero_refuted): METIS needs both directions.",
 "C130": "Proved on the first process for boundaries without holes in memory, with the search of the nearest boundary cell a function. Refuted: boundary cells no face finds are told nothing; with holes the distances are read out of bounds; if volume and boundary are not both distributed the map left from before is used.",
 "C131": "Proved for three methods. Refuted: CUSTOM is written as 99, that is refused; 2 is accepted and does nothing.",
 "C132": "Proved for files laid out as the reader expects (vertices, textures, normals, then facets, for each part). Refuted: files without textures or without normals; facets of vertices only without a blank at the end of the line; files with no part; an empty line after the vertices of the first part; normals between vertices.",
 "C133": "Proved for meshes with textures and normals, names of one word, and materials, groups and smoothing as the hypotheses of C133_written_partial say. Refuted: without textures or normals what is written cannot be read; two-coordinate textures; a second part with the smoothing and material of the first; cells without material after cells with one; names of more words. Cleaning after reading and the printing of decimals are not modelled.",
 "C134": "Proved for all fields.",
 "C135": "Proved for each strategy. Refuted: the pin of a group gives cells of any group of which it is a part of the name (C135_other_group_refuted); without blanks, an annotation that is a part of those before is left out (C135_left_out_refuted). The test for a null geometry in the pins is not modelled.",
 "C136": "Lengths proved, with the tolerance a parameter. The cells of up to four vertices asked for are computed again and the others stay (C136_computed_partial). Refuted: cells of five vertices or more lose their normals (C136_polygons_refuted). The formula of the normal in a corner is a parameter; collapsing of vertices is not modelled.",
 "C137": "Proved if no textures or normals are in the object restored into, or if both are in the stream. Refuted: data with textures keep them when data without are restored into them (C137_kept_refuted). Streams that are not dumps are not modelled.",
 "C138": "Proved for reads of one directory only (C138_one_partial). Refuted: the mesh is static, so after the first read all others give its case, whatever the directory (C138_second_refuted). Loading from the disk is a parameter.",
 "C139": "Polyhedra and vertices of shapes proved; C139_orientation_partial says how each shape is oriented, but what bitpit takes as positive is not in the sources.",
 "C140": "Proved for meshes in which two faces of a cell share two vertices at most, from an empty map. Refuted: an interface with the first of the vertices of a face is taken for it (C140_first_vertices_refuted); a face with the first of the vertices of an interface is read past its end (C140_past_end_refuted); entries from before are kept (C140_old_map_refuted).",
 "C141": "Proved for one process, and for more when all the points are of internal cells (C141_processes_partial). Refuted: with more processes a point of no cell makes all the writing refused (C141_free_point_refuted). Files are not modelled.",
 "C142": "Proved when the map of the faces and the patches of the boundary are those of the case. Refuted: too few values, as for a field of the other type, are read past their end (C142_past_end_refuted); without the map of faces a patch of two faces is an exception (C142_no_map_refuted); cells of no patch have no value for vector fields, and then no vertex has one (C142_no_value_refuted). Writing of fields does nothing in the code.",
 "C143": "Refuted: WritePointsOnly sets the overwriting (C143_overwrite_refuted); one null mesh is dereferenced (C143_null_refuted); the place after the last patch is out of bounds (C143_last_name_refuted). The rest proved.",
 "C144": "Proved for fields of eight characters, labels of at most eight digits and coordinates below a million: six digits are kept (C144_short_partial). Refuted: coordinates from 10^8 are cut to other numbers (C144_large_refuted); a file with fields of sixteen characters can not be read (C144_long_refuted); after a polygon faces take the labels of those before (C144_polygon_refuted); parts below -1 are written as they are not allowed (C144_low_pids_refuted). C144_long: what a file in the long format holds for every point.",
 "C145": "Refuted: of two cards that end a file with no end of line the second is lost (C145_last_refuted); an exponent after the letter E is lost (C145_letter_refuted); blank fields and short lines are exceptions (C145_blank_refuted, C145_short_line_refuted); a bar that ends the file is read though not enabled (C145_bar_refuted). The rest proved; RBE2 and RBE3 are not modelled.",
 "C146": "Proved for converters, and for readers and writers with the same file for both (C146_one_mode_partial). Refuted: the file of a writer is restored from the one to read (C146_written_refuted). The tolerance and options of the base class are not modelled.",
 "C147": "Proved when the sums are ints. Refuted: the reference has no maximum, and past the ints the parts of the cells are not those listed (C147_wraps_refuted).",
 "C148": "C148_patches: the three patches, for all meshes and selections; C148_linked. C148_dual_refuted: the dual flag is never read. C148_copy_refuted: a copy shares the selection. C148_internal_refuted: a face of the cut with all its vertices on the boundary patch is missing. C148_pids_refuted: the PIDs of deleted cells stay.",
 "C149": "C149_settings, C149_tolerance, C149_surface, C149_xml, C149_back. C149_again_refuted: a name keeps its first type. C149_target_refuted: the constructor refuses a volume or a curve. C149_arguments_refuted: a negative tolerance is kept, a null target drops the files, a null geometry is dereferenced. C149_back has the tolerance as its text of six digits says.",
 "C150": "C150_extract, C150_path. C150_bare_refuted: a file name without a directory is taken as the directory.",
 "C151": "C151_between: the vertices of the faces between the part and the rest, among which all those asked for. C151_border_refuted: those on the border of the geometry are returned too.",
 "C152": "C152_carried. C152_again_refuted: a second execution always raises an exception. C152_cloud_refuted: on clouds a field not on points is left on the whole geometry. C152_incoherent_refuted: an incoherent field is emptied.",
 "C153": "C153_read for all grids, C153_unsupported, C153_no_faces. C153_few_refuted: in VTK's own convention a grid with fewer face entries than cells is refused although it has the faces. C153_outside_refuted: a place beyond the points is read as vertex 0.",
 "C154": "C154_back for all meshes and parts written, C154_same, C154_unknown. C154_orphans_refuted: vertices of no cell are lost, so a cloud without cells is read back empty.",
 "C155": "C155_back for all meshes. C155_parts_refuted: all parts of the volume become 0. C155_polyhedron_refuted: after one cell of another type no cell at all is written, though the zone counts them.",
 "C156": "C156_back for all boundaries. C156_points_refuted: faces over the vertices of a patch of points that were not in it are taken too. C156_polygon_refuted: in place of a cell that is no triangle nor quadrilateral, the first surface element of the file is in the patch.",
 "C157": "C157_elements for all files of one zone with linear sections. C157_ten_refuted: high order elements are cut in pieces, past the end of the data. C157_mixed_refuted: types in mixed sections are less by one. C157_line_refuted: line elements are not numbered. C157_zones_refuted: ids of cells collide between zones, the second is lost. C157_interface_refuted: a patch of elements at the interface between zones throws.",
 "C158": "C158_file, C158_given, C158_twice for all histories. C158_nothing_refuted and C158_type_refuted: undefined behaviour when nothing was given, or data of another type. C158_copy_refuted: copies have no data. C158_stale_refuted: after a reading the data of the file replace those given. C158_processes_refuted: if the file is not there process 0 throws and the others wait for ever.",
 "C159": "C159_through for all settings. C159_silent_refuted: nothing is said when the file cannot be written. C159_binary_refuted: csv turns binary off for good.",
 "C160": "C160_back for the four classes, C160_order. C160_file_refuted: a GenericInput that does not read when it is written loses directory and name of its file.",
 "C161": "C161_back for location, identifiers and values. C161_name_refuted: the name is always lost.",
 "C162": "C162_constant, C162_linear for all meshes. C162_plane_refuted: neighbours in an oblique plane make a division by zero. C162_small_refuted: distances less than 1e-12 are taken for zero, and every slope is wrong.",
 "C163": "C163_linear, C163_turned, C163_border, C163_neumann, C163_dirichlet for all interfaces and fields. C163_given: exactly when it is given. C163_plane_refuted: it is not when the centre of a cell is in the plane of the interface.",
 "C164": "C164_cell, C164_balance, C164_linear, C164_ghost. C164_part_refuted: a cell with only some interfaces given has a stencil, that is wrong.",
 "C165": "C165_best (values that differ less than the side is long), C165_steep (more), C165_side and C165_within for all triangulations, beyond the tolerance 1e-12 of the code. C165_small_refuted: sides shorter than 1e-3 are only left from their ends, so the distance is too long.",
 "C166": "C166_ends, C166_reached, C166_others, C166_final for all seeds, C166_one and C166_first for one seed. C166_several_refuted: with neighbouring seeds a vertex gets a distance less than the straight distance to each of them.",
 "C167": "C167_back, C167_names, C167_ids for all texts. C167_nothing_refuted: without smoothing ids a number that is not set is read. C167_strategy_refuted: the strategy GETALLNOBLANKS becomes GETALL. C167_blank_refuted: names with blanks are split.",
 "C168": "C168_back, C168_names, C168_partly for all settings. C168_tolerance_refuted: tolerances below half a millionth are lost. C168_mode_refuted: a blank IOMode gives an undefined mode.",
 "C169": "C169_found, C169_none, C169_any for all trees; C169_interior and C169_missed say what interiorOnly gives. C169_interior_refuted: the estimate uses the boxes of ghost cells too, so that an interior cell within the distance is missed when a ghost is nearer.",
 "C170": "C170_shared, C170_scattered, C170_serial: the closest cell of all the processes is found in spite of C169_interior_refuted. C170_rows: the rows are enough. C170_radius_refuted: the radius is not used. C170_rows_refuted: more rows than points are searched, the count adds coordinates to points.",
 "C171": "C171_union when each identifier is of one vertex and one cell over all the surfaces; C171_only, C171_none without conditions. C171_lost_refuted: cells with an identifier already in use are lost, as for surfaces numbered each by itself. C171_places_refuted: with vertices of the same identifiers the cells are drawn in other places. C171_order_refuted: the union then depends on the order of the set.",
 "C172": "C172_owner_neighbour, C172_border, C172_others for all positions, with triangles of the same orientation. C172_orientation_refuted: with a neighbour of the other orientation the normal goes away from it.",
 "C173": "C173_stream for all maps; C173_names, C173_first for zones and names. C173_conditions says what the other processes have. C173_conditions_refuted, C173_lists_refuted: the kinds of list are received in the map of the conditions, so that conditions are overwritten and kinds are lost on all processes but the first.",
 "C174": "C174_unique, C174_never_reused for all histories without setId; C174_copied, C174_assigned, C174_swapped say what is taken and what stays; C174_files for blocks of the same name. C174_forced_refuted: setId can give an identity that a later block gets too. C174_files_refuted: blocks of different names can write the same file, the number being appended without a separator.",
 "C175": "C175_log, C175_too_late for all histories.",
 "C176": "C176_own for all histories; C176_count gives the number of communicators taken. C176_leak_refuted: they are never freed, neither by the destructor nor by the assignment, and grow without bound.",
 "C177": "C177_out, C177_copies, C177_typed for all ports. C177_in, C177_in_left say what the comparison of input ports does. C177_reflexive_refuted, C177_sound_refuted, C177_unchanged_refuted: it assigns (=) the obligation and the family instead of comparing them.",
 "C178": "C178_magnitude, C178_zero, C178_again for all fields with one value for each identifier.",
 "C179": "C179_selections, C179_boxes, C179_primitives, C179_absent, C179_radius, C179_axes for all settings. C179_limits_refuted: Primitive reads InfLimits but does not write it. C179_axes_refuted: Primitive throws if an axis of RefSystem is not given."
}