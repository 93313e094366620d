# Formal model of optimad/MIMMO in Rocq (Coq 8.16.1)

## Layout

* `properties.jsonl` - the English properties C01, C02, ...
* `rocq/theories/<Area>.v` - the model of an area of the code: definitions only, each
  with the file and lines it models and any simplification.
* `rocq/theories/<Area>Spec.v` or a section "Specification" at the top of the property file -
  small independent definitions used in the statements.
* `rocq/theories/<Area>Proofs.v` - lemmas.
* `rocq/theories/<Area>Props.v` - the property theorems only, each closed by `exact`,
  followed by `Print Assumptions`, and next to it the `Example`s showing that the hypotheses
  are met by a concrete non-trivial case.
* `MANIFEST.json` - property -> theorems.
* `seeded/LOG.jsonl` - the wrong programs the theorems were tested against.

## Conventions

* C++ pointers to blocks are natural numbers (identity); iteration order of `unordered_map` is
  an arbitrary list order, and the theorems quantify over it.
* `double` is modelled by the real numbers `R` of the standard library: rounding, overflow, NaN
  and infinities are not modelled, except that a division by zero or a square root/arc-cosine out
  of domain is called out where the code can reach it.
* `int`/`long` indices are `Z` (unbounded) or `nat`; 64-bit wrap is modelled only in the byte
  codecs and in counters where the property is about it.
* Undefined behaviour (out-of-range access, use after free, dereferencing null, unbounded
  recursion) is a distinct outcome (`None`, `UB`, `Throw`, `OutOfFuel`), never a default value.
* Loops whose termination is part of the property run on explicit fuel with a distinct
  out-of-fuel outcome; termination is a theorem ("some fuel suffices"), non-termination is a
  theorem ("no fuel suffices").
* Where the code violates the English property, the faithful model refutes it: the theorem is
  named `..._refuted` and exhibits a concrete witness; the part which is true is `..._partial`.

## Plan per property

Each property has its full statement in `properties.jsonl`, its theorems and what is missing in
`MANIFEST.json`. This table says what the theorems are about and how they are proved.

| id | modelled | proof |
|----|----------|-------|
| C01-C03 | `Chain::addObject` with fuel over an arbitrary parent/child table | well-founded induction on an ancestor rank; refutation for cycles (no fuel suffices) and for the returned index |
| C04-C05 | `checkLoops`, `exec` as a trace | induction on the list; cycles via order contradiction |
| C06 | id counter, `deleteObject`, `clone` | invariant over op lists; refuted for clone + add |
| C07-C11 | world of blocks with port tables, links and multiplicity tables; `addPin`, `removeAllPins`, `removePin`, `removePins*` with the index-drift loops as written | invariant by induction over histories, refutations by witness |
| C12 | `BaseManipulation::exec` | case analysis of the family table |
| C13 | port tables, `createPortIn/Out` | refuted + partial |
| C14-C16, C42-C43 | byte-level stream, universe of types, buffer of a port, prefixes of a message | induction over the type universe, buffer-overwrite lemma |
| C17 | `flushConnections`/`absorbConnections` over abstract configuration sections | round trip |
| C18-C19, C44-C45 | registries as association lists, creators as addresses | refinement to maps, invariant over histories |
| C20 | heap of objects and counters, handles | invariant over histories |
| C21-C24, C46-C51 | pierced vector as ordered association list with throwing insert; averages over reals | list induction, pigeonhole; sums of reals |
| C25-C28, C55-C60 | `UStructMesh`, calls of its setters as histories | `lia`/`nia`, `lra`/`nra` over `R`; invariants over histories |
| C29, C61-C62 | `Lattice` numbering loop | invariant of the fill loop against "number of first points before", counting; places through trigonometry |
| C30-C33, C52-C54 | `BasicShapes`, selections through any bounding-volume tree | real algebra/trigonometry; induction on trees |
| C34-C37, C63-C64 | manipulators on a store of geometries, with filters and executions in sequence | real algebra/trigonometry, induction over vertices and over executions |
| C38, C65 | `customOperators` | list lemmas, refuted where the clamp drops the last element |
| C39, C66 | ranks with messages in any order of arrival, prefix sums; id maps | induction on ranks and on messages |
| C67-C69 | the statuses of the seven structures of a geometry and the data each was built from | invariant over histories |
| C40, C71-C73 | `FFDLattice`: knots, basis functions, evaluators, executions, weights as histories of setters and builds | induction on the degree against the recursion of Cox and de Boor; sums of products; Bernstein polynomials |
| C41 | `MRBF`: kernels, executions, the linear solver as an oracle | real analysis of kernels; sums over nodes; induction over vertices |
| C74-C75 | `FFDLattice`: wrapped and mirrored control nodes; limits of displacements, the seam of cylinders | the nodes of `setMapNodes` against their description; Lipschitz hats of degree 1, then limits by induction on the degree; translation by a period |
| C76-C77 | `MRBF`: radii, displacements as lists and fields, nodes from a geometry | case analysis on setters, sorting of ids against listed pairs |
| C78 | `MRBF::checkDuplicatedNodes` | invariant of the double loop |
| C79 | part identifiers of `MimmoObject` over histories of calls | invariant: identifiers of cells listed, names keyed by the list |
| C80 | `addConnectedCell`, constructor from lists, coherence and deduction of element types | streams of faces characterised by induction on the walk |
| C81 | compact connectivity and coordinates, rebuilt by the constructor | position of a vertex against the numbering of the constructor; refuted for polyhedra |
| C82 | lists of vertices of cells and cells of vertices | membership through the faces of the elements |
| C83 | GenericSelection::execute on the content of geometries | the loops copy vertices and cells without loss; names by the map of the target |
| C84 | SelectionByPID with its map of active identifiers | requests against an independent reading of their history; sorted merge for the dual; refuted for several requests |
| C85 | SelectionByElementList | C82 for the cells of the vertices; the dual is refuted |
| C86 | ClipGeometry | sign of the distance to the plane after normalisation; refuted for four coefficients of any length |
| C87 | StitchGeometry | counters as invariants of the loops; each geometry is copied at an offset; refuted for polyhedra, names, negative identifiers |
| C88 | triangulate, SurfaceTriangulator | the loop on the cells with the cells still to visit; result up to permutation; vector area of a fan by cyclic sums; refuted for PIXEL |
| C89 | degradeDegenerateElements | first occurrences of places in each cell, deletion and insertion, renumbering keeps places; refuted for polygons, pixels, polyhedra, collapsed prisms, opposite collapses |
| C90 | decomposeLoop, isClosedLoop | invariant of the visit: for each face of a saved cell all the cells across are checked or one of them waits; parts are classes of the chain relation; refuted on the empty mesh |
| C91 | extractBoundary*, getBorder* | free faces by position; border mesh cell by cell; closure of the border of a volume by parity (faces with a side go in pairs in cells, shared faces go in pairs) |
| C92 | narrow bands around a surface | invariant of the advancing front: neighbours of the result are visited, visited ones are in the result, pending or out of the band; refuted for vertices without seeds, for repeated seeds |
| C93 | inverse and point connectivity | fold of map insertions: the last cell with the vertex; relation of the map is the edge relation; refuted for isolated vertices |
| C94 | ReconstructScalar/Vector | invariant of the double loop: value and counter of an id are the fold of the values collected so far; removal by invariant of the swap-with-last loop; refuted for the guard of addData, for the removal of the only field, for the order of vectors |
| C95 | Extract*Field | the sequence of push of the ids kept is a filter of the entries (no id twice, so no exception); membership in the vertices of cells by induction; the cells near a geometry are a parameter (C97 is about them); refuted for mappings between numberings and for the XML mode |
| C96 | Select*Field | first match by induction on the list; mapping by an invariant of the pour loop: value = sum and counter = number of the values so far; refuted for the documented choice and the XML mode |
| C97 | selection with two trees of boxes | induction on the target tree with the set of candidate leaves of the selection as invariant; completeness from nested boxes; refuted for one-node targets and for exactness |
| C98 | distance, signed distance, projection | reals extended with infinities and NaN for the arithmetic the code does on them; the searches of bitpit are parameters with a specification; refuted for the documented result when nothing is found |
| C99 | points on cells | barycentric coordinates from areas; polygons by a sign change along the fan; refuted for PIXEL, non-convex polygons and the distance from a polygon |
| C100 | exchanges of points and answers between processes | semantics of blocking sends and receives with arbitrary buffering; the programs of the processes are the two sides of one list of communications (choreography), for which freedom from deadlock, end and determinism are proved in general; reductions by induction on the processes; refuted for whole surfaces and for the radius |
| C101 | rounds of the projection | induction on the rounds: the result of a point is a function of its radii only |
| C102 | messages with sizes first, buffers read back with the stream operators, maps merged | the exchanges are choreographies (Mpi); round trip of the streams (C15); merging by induction on the processes |
| C103 | text as lists of character codes, doubles as decimals, streams with the flags of the library | a shown value followed by a delimiter is read back (TextProofs); induction on the lists |
| C104 | lines of a text file, labels, positions of labels | each line written is parsed back (TextProofs); invariants of the two loops over the lines |
| C105 | settings and calls, parts of a cloud on processes, planes over the reals | invariant of the loop over the points; algebra of reflections; new labels counted over the processes |
| C106 | members as records, rotations as in the specification of the manipulators | vector algebra (formula of Rodrigues), uniqueness of the turned point |
| C107 | folds over processes and geometries, doubles as reals, LAPACK as a function assumed right | induction over lists, algebra of frames, integral of polynomials over a triangle |
| C108 | Model of the violation fields: completion of the field, search radius per vertex, growing radii, maximum over constraints and processes; proved against the distance of a point from a set, with the search a function right for its radius. Refutations for isolated vertices, fields not suitable and geometries around a constraint. |
| C109 | Model of the two refinements (worklist of red cells with tags, split edges, green cells) and of the two sub-steps of smoothing; spreading proved to be the least fixed point of the rule by an invariant on the list of events; cells by barycentric coordinates and vector areas; conformity by sums of antisymmetric functions on directed edges. Refutations for pixels and for the second sub-step. |
| C110 | Stencils, band, conditions and right hand side as in the code; solver as a parameter that solves what can be solved. The system is shown equivalent to a balance of positive pulls; existence by suprema of fields below the conditions (completeness of the reals), uniqueness, bounds and order by a maximum principle along chains of links. |
| C111 | Loop of steps with the rows of the system as a state updated only where vertices moved; invariant: each row is a balance with positive pulls and the displacement so far is within a share of the box. Slip walls as predictor and corrector in one step. Refutations on a row of three vertices. |
| C112 | The formulas on real numbers with divisions by zero as an outcome; closed forms and monotonicity by Rpower. |
| C113 | Fields and patches as lists in any order, containers as association lists, a growing vector with the address of its array; refutations by orders and by the number of the array. |
| C114 | Candidates as a list of points and sensitivities; the loop of the reductions of the radius with fuel (None: not ended). Invariant: those visited are exactly those within the radius of a chosen one; pigeonhole for the end and for the quality; bounds on the cells of the grid. |
| C115 | Lists of real numbers; least and greatest by induction. |
| C116 | Distance on the surface as a parameter that is zero exactly on the vertices it is from; induction on the points chosen. |
| C117 | Generator as a parameter; record of settings, XML section as optional values. |
| C118 | Cells, faces, volumes and normals as records of real numbers, angles by acos; each indicator is a fold of minima or maxima, and is within a tolerance when all its values are. Lists of cells by filters. Reductions over ranks. |
| C119 | The indicators as a state that executions change; induction on the meshes. |
| C120 | Record of tolerances, XML section as values. |
| C121 | Fields as lists of identifiers and values, the execution as a relation since the queue may give any of the longest segments; invariant: the cells are the pieces of divisions of the segments, with their lengths in the queue. |
| C122 | The object and its number of cells after an execution. |
| C123 | Lists of identifiers and values. |
| C124 | Points and lines of a projected segment computed as in the code, projection a function. Spec: evenly spaced points. By computation on indices; refutations for directions and counts. |
| C125 | Text written and read with the stream model of Text.v. By digits: the number read is all digits in a row. |
| C126 | Fold of minima and maxima, reduction over processes, origin and span. Spec: least box around enlarged spheres, shown unique. By associativity of the folds. |
| C127 | Vertices modified one by one by identifier. Induction on the list of vertices with distinct identifiers. |
| C128 | One process of the object: maps as lists, METIS a function, outcomes of execute (nothing, exception, undefined, maps told). By induction on maps. |
| C129 | The compressed rows as built by the loop, with their padding. Spec: what METIS reads from them. Prefix sums of rows. |
| C130 | Fold over border faces with distances by place in memory. Invariant: the nearest so far. |
| C131 | Methods as integers. |
| C132 | A file is a list of lines; the reader is a function of lines to a state. By induction on the parts, with the lines of a part laid out by the spec. |
| C133 | The writer gives lines, that the reader of C132 reads. By induction on parts, groups and cells; permutations for the regrouping. |
| C134 | The map as a list of pairs, built by a fold. Invariant over the names met. |
| C135 | Groups as a function of cells, names as lists of characters; find as a search of a part. At a cell the loops are a fold over the names on it. |
| C136 | Normals as vectors over R, the normal in a corner a parameter; cells refused when the connectivity of a polygon has no count. By induction on the cells asked. |
| C137 | Streams as lists of tokens, meshes one token. By induction on the fields. |
| C138 | The static mesh as a state that each read goes through; the disk a function. By induction on the reads. |
| C139 | Cases as lists of faces with owner and neighbour; connectivity as the code permutes it. Cases on owner and neighbour; permutations; determinants over R. |
| C140 | Interfaces of a cell as a list; sort and std::equal with an outcome for reading past the end. Sorted lists with the same elements are equal; induction on faces and patches. |
| C141 | Points as a list, vertices by id; the set of vertices of internal cells sorted. A sorted list of all below n is 0..n-1. |
| C142 | Fields as lists of id and value with insertion refused on a duplicate; values over any type, over R and vectors for averages. The field is a concatenation of blocks, one for each patch. |
| C143 | Options as a record, XML as optional values. By cases. |
| C144 | Lines as lists of characters, coordinates as multiples of the last digit; writing then reading with substr and exceptions. Digits of a number cut at a length bound the error; induction on points and faces. |
| C145 | The loop of the reader over the lines left, with the end of the file. Induction on the lines before; the field followed character by character. |
| C146 | Settings as a record, a section as a list of options with their text. By cases on the mode; texts with no white space at the ends are kept by trim. |
| C147 | The model of parts of MimmoObject; the loop over the names. Induction on the parts listed. |
| C148 | The contents of geometries of Obj, selections as sets of cells per geometry, borders as in C91. Deletion of cells keeps the vertices used; faces of the border compared by vertices. |
| C149 | Settings as a record, calls as a history, latest first; induction on the history. |
| C150 | Selections near another geometry as in C97; union, then the merge of sorted lists for the dual. Paths as lists of characters. |
| C151 | Maps of border faces of Topo for the geometry and the part; difference of the maps. |
| C152 | Extraction of fields of C95, with the field of the block replaced. |
| C153 | The arrays of a file as lists, reading as a loop with its two running positions; a grid of cells by the places of their points and a relation with the arrays in three conventions. Induction on the cells left. |
| C154 | The arrays written are those of a grid in the sense of C153; places of vertices are inverted by the ids. |
| C155 | Files as lists of zones; the sections written, by types, are read in the order of the running element number. Induction on the sections; places of vertices are inverted by NoDup. |
| C156 | Element numbers of a patch are looked up in the table of the surface elements read; patches of points by membership of all vertices, a face kept by the first. |
| C157 | Sections in any order as lists of elements; induction on sections for the running number. The rest by witnesses. |
| C158 | The block and the disk as a state, operations as a function on it; settings at the end of a history by induction; processes by Mpi.v: no step is possible. |
| C159 | Printer and parser as functions that undo each other; by cases on the settings. |
| C160 | Settings of four classes, sections as lists of options; by cases. |
| C161 | Files as bytes, numbers in two's complement; induction on the rows. |
| C162 | Stencils as linear functionals; the cofactor formula with the symmetry of the matrix, definite because neighbours span: real algebra, induction on the neighbours. |
| C163 | Evaluation of stencils is linear: real algebra for any stencils of the cells. |
| C164 | The loop over interfaces adds to a map of stencils: induction on the interfaces; exchange of sums for the balance. |
| C165 | The update as a minimum over the ring; supporting line of the length at the stationary point, convexity for the restriction to the side: real algebra. |
| C166 | The loop as a transition system with any choice among smallest keys; invariants on flags, queue and values, a count of settled vertices for the end. |
| C167 | Sections as lists of options; loops on streams of characters against an inductive definition of the words of a text: induction on it, lemmas on the trimming. |
| C168 | As for C167; the tolerance as a number of 1e-12, printed with six decimals. |
| C169 | The loop on the stack of nodes as a fuelled function with fuel the number of nodes; invariant: every cell not beyond the estimate is in a leaf kept, and the estimate is that of the start or not below some cell. |
| C170 | The searches of the processes with the bound from the boxes of the partition, the reduction as a fold of any operation that keeps a least one; the owner of the closest cell cannot miss it. |
| C171 | Containers as lists of elements with a key, additions that do nothing on a key in use: induction on the patches. |
| C172 | Vectors of reals; normals as relations (unit, orthogonal, right-handed): identities of the products, no trigonometry. |
| C173 | Streams as lists of items, maps as sorted lists; reading as a fold of insertions: induction with any rest of the stream. |
| C174 | Histories of operations on handles, with the static counter; invariant: identities alive are below the counter and different. |
| C175 | Same histories: once the counter is above 1 the names are settled; induction on the history before and after the first block. |
| C176 | Same histories, communicators numbered as they are duplicated; invariant and count by induction. |
| C177 | Ports as records, the comparison returning the answer and the left port; case analysis and induction on the links. |
| C178 | Fields as lists of identifiers and values, execution as the loop of the code: induction on the identifiers left. |
| C179 | Sections as records of optional texts, any function for the rounding of numbers: computation on all settings. |
<!-- more plan -->

What cannot be expressed: the behaviour of bitpit (mesh kernel, VTK, logger, MPI transport), CGNS,
OpenFOAM, LAPACK and the XML parser is external and enters only as an oracle: an arbitrary function
or an assumption spelled out in the statement. Rounding is not expressed, see the conventions.

## What is modelled and what is not

| area (rocq/theories) | code | left out |
|---|---|---|
| Chain | src/core/Chain.{hpp,cpp}: all | debug printing |
| Pins, Exec | src/core/BaseManipulation.{hpp,cpp,tpp}, InOut.{hpp,cpp}, MimmoNamespace.cpp: ports, pins, exec | XML absorption, plots |
| Stream | src/common/mimmo_binary_stream.{cpp,tpp}, InOut.tpp, port buffers | MPI variants |
| Xml | src/core/IOConnections.cpp | text syntax of the file |
| SharedPtr | src/core/MimmoSharedPointer.tpp | pointers inside pointed objects |
| Registry | src/common/factory.hpp, portManager.hpp | - |
| Field, FieldAvg | src/core/MimmoPiercedVector.tpp | squeezing/sorting of the storage, which bitpit does |
| Shape, ShapeSel | src/core/BasicShapes.{hpp,cpp} | selection by parallel ranks |
| Mesh | src/core/BasicMeshes.{hpp,cpp} | plots |
| Lattice | src/core/Lattice.cpp | plots, XML |
| Manip | src/manipulators/{Rotation,Twist,Scale,Translation,Bend}Geometry, Apply, ApplyFilter | XML, MPI reductions of the mean point |
| Subset | src/common/customOperators.{hpp,cpp} | printing |
| Ghost | src/core/MimmoObject.cpp: updatePointGhostExchangeInfo, maps of ids | the exchange lists themselves (bitpit) |
| Sync | src/core/MimmoObject.cpp: constructors, add/modify/clean/build/update/reset, copy, swap | content of trees (bitpit), MPI except cleanGeometry |
| Ffd | src/manipulators/FFDLattice.{hpp,cpp} | nurbsEvaluatorScalar, convertDisplToXYZ, setLattice by spacing, plots, XML |
| Rbf | src/manipulators/MRBF.{hpp,cpp}: kernels of mimmo and Wendland C2, setters, initRBFwGeometry, radii, execute, apply, duplicated nodes; bitpit::RBF evalRBF as the sum over active nodes | bitpit's solve and greedy (oracles), its other kernels (arbitrary functions), XML, partitions |
| Obj | src/core/MimmoObject.cpp: vertices, cells, connectivities, part identifiers, constructor from lists, clone, lists of vertices and cells | bitpit's storage beyond ids, order and content; ghosts and ranks; ids chosen by bitpit are an arbitrary function |
| Select | src/geohandlers/{GenericSelection,SelectionByPID,SelectionByElementList,ClipGeometry,StitchGeometry}.cpp | the deletion of coincident vertices and the centroid of a cell (arbitrary functions), plots, XML, MPI, constrained boundaries |
| Tri | src/core/MimmoObject.cpp (triangulate, degradeDegenerateElements), src/geohandlers/SurfaceTriangulator.cpp | the centroid of a cell and the equality of vertices (arbitrary functions), MPI, the lists of degraded cells and vertices returned |
| Topo | src/core/MimmoObject.cpp (isClosedLoop, decomposeLoop, extractBoundary*, getBorder*, serial build) | the adjacencies and the interfaces built by bitpit (arbitrary functions, taken to be right in the sense of `adjacent_right` and `interfaces_right`), MPI ghosts, build status of adjacencies and interfaces |
| Band | src/core/MimmoObject.cpp (narrow bands, getInverseConnectivity, buildPointConnectivity, getPointConnectivity) | the trees (distances and candidates are arbitrary functions, right in the sense of `measured`), the edges of a cell and the face neighbours given by bitpit, MPI, sync status |
| Recon | src/geohandlers/ReconstructScalar.cpp, ReconstructVector.cpp (addData, removeData, execute, overlapFields) | XML, plots; rounding; geometries are addresses with a fixed content |
| Extract | src/geohandlers/ExtractFields.cpp, Extract{Scalar,Vector,Long,String}Field.cpp, SelectField.cpp, Select{Scalar,Vector,Long,String}Field.cpp | plots; other XML options; the search of near cells is a parameter; geometries are addresses with a fixed content |
| SkdSel | src/core/SkdTreeUtils.cpp: selectByPatch, extractTarget, selectByGlobalPatch | the trees are given; boxes are products of real intervals |
| SkdDist | src/core/SkdTreeUtils.cpp: distance, signedDistance, projectPoint, computePseudoNormal | the closest-cell search and the projection weights are parameters; one process |
| CGUtil | src/core/MimmoCGUtils.cpp 41-122; src/core/SkdTreeUtils.cpp: locatePointOnPatch, checkPointBelongsToCell | the closest-cell search and the distance from a triangle are parameters |
| Mpi | MPI_Send, MPI_Recv as the standard has them | failures, non-blocking calls, wildcards |
| GlobDist | src/core/SkdTreeUtils.cpp: signedGlobalDistance, locatePointOnGlobalPatch, findSharedPointClosestGlobalCell, projectPointGlobal | the searches, the pseudo-normal and the minimum operation are parameters; a gather is sends to the root; reductions are atomic |
| Share | src/iogeneric/GenericInput.tpp, GenericOutput.tpp (exchanges), src/iocgns/IOCGNS.cpp: communicateAllProcsStoredBC, src/manipulators/MRBF.cpp: exchange of initRBFwGeometry | the loops over a map write what a vector of pairs writes; which addresses are in the memory of process 0 is a parameter |
| Text | text forms of integers and doubles, extraction from a stream (C++ library) | doubles are decimals (mantissa, exponent), shown with p digits rounded to nearest; exponent format for all; characters are codes |
| CsvIo | src/iogeneric/GenericOutput.tpp 27-160, 228-272, src/iogeneric/GenericInput.tpp 27-200, 460-525 | files are the lists of characters written; values read before anything is stored are parameters |
| LabelIo | src/iogeneric/GenericDispls.cpp 383-515, src/iogeneric/IOCloudPoints.cpp 391-600 | broadcast of the displacements, plots, XML |
| Specular | src/utils/SpecularPoints.cpp 32-42, 284-348, 354-531, 537-546; ProjPatchOnSurface.cpp 237-277 (the search is a function) | XML, plots, trees, memory reserved |
| RefSys | src/utils/RotationAxes.cpp 32-52, 96-108, 152-245; src/utils/TranslationPoint.cpp 31-35, 132-166 | XML, ports |
| BBox | src/utils/AABBox.cpp 116-128, 203-206, 269-330; src/utils/OBBox.cpp 250-254, 328-377, 415-529, 616-877, 930-974 | the choice of three vertices of polygons, files, plots, XML |
| Limit | src/utils/ControlDeformMaxDistance.cpp 110-122, 155-158, 176-249; src/utils/ControlDeformExtSurface.cpp 120-136, 203-206, 337-437, 567-640; src/core/MimmoPiercedVector.tpp 377-447, 530-579 | the searches in the tree (functions right for their radius), boxes of the constraints, files, logs, XML, plots |
| Refine | src/geohandlers/RefineGeometry.cpp 137-162, 177-211, 288-449, 461-841, 850-949, 959-1164, 1171-1182 | ghosts and ranks, ids of cells, coarse and refined patches and their mapping, deletion of orphan vertices, XML, plots |
| Propagate | src/propagators/PropagateField.cpp 138-163, 239-352, 578-581, 711-786, 817-949, 963-1079, 1084-1290; PropagateField.tpp 273-286, 632-673, 739-846, 914-939, 1083-1236; StencilFunctions.cpp 594-764 | the solver (a parameter), ghosts and ranks, renumberings, how the band and the distances are found (parameters), slip and periodic vertices inside the mesh, checks of coherence, XML, plots; links of null length |
| Seeds | src/utils/CreateSeedsOnSurface.cpp 41-51, 263-267, 316-318, 441-556, 575-607, 653-676, 709-728, 782-805, 875-977, 1388-1455, 1462-1496, 1534-1552 | the oriented box, projection and interpolation of sensitivities, the Eikonal solver (a parameter), the generator (a parameter), triangulation, plots, ranks, XML text |
| MeshCheck | src/utils/MeshChecker.cpp 121-171, 187-193, 216-229, 290-386, 401-639, 722-854; MeshChecker.hpp 95-104 | volumes, centres and areas of cells (given), ghosts, logs, the VTU files written, XML text |
| Curve | src/iogeneric/Create3DCurve.cpp 43-47, 167-223, 336-518; CreatePointCloud.cpp 220-279 | ranks but the first, XML, plots, reserved memory |
| Segment | src/utils/ProjSegmentOnSurface.cpp 123-164, 219-223, 245-312; ProjPatchOnSurface.cpp 239-274; RBFBox.cpp 133-136, 153-155, 209-238 | trees, partition of results, other XML options, plots |
| Partition | src/parallel/Partition.cpp 127-157, 164-285, 294-477, 588-619 | bitpit's partition, METIS, search on trees, updateBoundaryVerticesID |
| Wavefront | src/iogeneric/IOWavefrontOBJ.cpp 1601-1718, 1864-1960, 2131-2640 | cleaning of the mesh read (1719-1853), printed decimals, ranks, the resume file, XML |
| WavefrontData | src/iogeneric/IOWavefrontOBJ.cpp 77-125, 148-207, 213-299, 786-801, 806-858, 866-979, 984-1035 | evalVNormal (a parameter), collapsing of vertices, pins of parts, XML, ranks |
| Foam | src/ioofoam/IOOFOAM.cpp and openFoamFiles_native.cpp, the lines cited in Foam.v | OpenFOAM itself (a record of the case), files, writing of cases, cells of partial types, ranks but for points |
| Nastran | src/iogeneric/MimmoGeometry.cpp 593-606, 1282-1813 and MimmoGeometry.hpp 298-334 | RBE2 and RBE3, hexadecimal and infinite numbers, files |
| GeomIo | src/iogeneric/MimmoGeometry.cpp 50-71, 154-349, 455-458, 512-522, 933-942, 1003-1271 | the other formats of reading and writing, the tolerance, BaseManipulation options |
| FvSel | src/geohandlers/FVGenericSelection.cpp 38-149, 222-351 | checks that only warn, MPI, XML |
| MapSel | src/geohandlers/SelectionByMapping.cpp | MPI, reading of the files |
| Cut | src/geohandlers/GenericSelection.cpp 166-216; src/geohandlers/SelectionByBoxWithScalar.cpp 150-171 | MPI, plots |
| Vtu | src/core/VTUGridReader.cpp 70-342, src/core/VTUGridWriterASCII.cpp 60-307 | the XML around the arrays, binary numbers, ranks of cells and vertices |
| Cgns | src/iocgns/IOCGNS.cpp 532-1155, 1163-1430, 1540-1880 | the CGNS library, ids of surface cells, orders of unordered maps, MPI, the file of information, which of coincident vertices is kept |
| GenBlk | src/iogeneric/GenericInput.cpp, GenericInput.tpp 200-514, GenericOutput.cpp, GenericOutput.tpp 160-275 | how values are written as text (CsvIo), truncated binary files, fields fitted to a geometry |
| FvSten | src/propagators/StencilFunctions.cpp 44-580 | rounding, how bitpit gives neighbours, centroids, normals, areas and volumes |
| Eik | src/utils/CreateSeedsOnSurface.cpp 509-513, 994-1151, 1175-1315, 1346-1382 | rounding, NaN of sides without length, the array of bitpit's heap (a list of pairs), the ring of bitpit at vertices where the surface is not a disk |
| WfSet | src/iogeneric/IOWavefrontOBJ.cpp 307-337, 526-580, 625-760, 1155-1184, 1401-1403, 1445-1541 | settings of BaseManipulation, layout of the tolerance, order of unordered sets |
| SkdFind | src/core/SkdTreeUtils.cpp 1407-1413, 1434-1517, 1538-1543, 1564-1645, 1664-1780 | distances from boxes and cells, choice between cells at the same distance and minimum operation of bitpit, number of evaluations returned |
| UniSurf | src/propagators/PropagateField.tpp 684-722; src/core/MimmoObject.cpp 2156-2161, 2311-2317, 2329-2340 | update of adjacencies and exchanges, order of an unordered set |
| IntNorm | src/core/MimmoObject.cpp 4616-4644, 4656-4677 | normal and length of the edges, normal and area of the faces of bitpit |
| BcShare | src/iocgns/IOCGNS.cpp 1932-2003, 2011-2066, 2072-2138; src/iocgns/IOCGNS.hpp 52-56, 68-75; src/common/mimmo_binary_stream.tpp 174-205 | bytes of the items, order of the messages of MPI |
| BlkId | src/core/BaseManipulation.cpp 30-155, 163-190, 398-400, 472-474, 978-991; src/core/MimmoNamespace.cpp 185-205 | overflow of the counter, contents of the log, derived classes |
| PortEq | src/core/InOut.cpp 60-65, 86-104, 199-218; src/core/InOut.tpp 104-121, 227-247 | contents of the buffers beyond their bytes |
| ModFld | src/core/Module.cpp 113-155; src/core/MimmoPiercedVector.tpp (clear) | floating point of the lengths |
| PrimXml | src/core/Primitive.cpp 111-236; src/geohandlers/SelectionByBox.cpp 152-277; src/geohandlers/SelectionBySphere.cpp 157-301; src/geohandlers/SelectionByCylinder.cpp 152-304 | digits of the texts, checks of the setters (Shape.v), options of BaseManipulation |
<!-- more areas -->

Not modelled: whatever is not listed above, that is the rest of src/core (MimmoObject.cpp,
SkdTreeUtils.cpp), of src/geohandlers, src/iogeneric, src/propagators and src/utils, and all of
src/iocgns, src/ioofoam and src/parallel but for what is listed.

## What the model found

Each `_refuted` theorem is a defect of the code with respect to its documentation, with a witness.
`MANIFEST.json` has one line for each in the notes of its property.

## Trusted base

* Coq 8.16.1's kernel (`coqchk` is run on the compiled files by the check).
* The reading of the code recorded in the comments of the model files, with the simplifications
  stated there and in the conventions above.
* The axioms of the standard library listed below, and no other. `classic`,
  `functional_extensionality_dep`, `sig_forall_dec` and `sig_not_dec` come with the real numbers of
  the standard library. No axiom is added by this development.

Axioms of each property theorem, as printed by `Print Assumptions` (made by `tools/assumptions.py`):

<!-- axioms -->
* No axioms (closed under the global context) - 329 theorems: `C01_chain_order`, `C02_addObject_returns_partial`, `C02_addObject_returns_refuted`, `C03_returned_index_partial`, `C03_returned_index_refuted`, `C04_exec_cycle`, `C04_exec_order`, `C05_loop_error_only_for_loops_partial`, `C05_loop_error_only_for_loops_refuted`, `C06_clone_same`, `C06_delete_exact`, `C06_ids_after_clone_refuted`, `C06_ids_distinct`, `C07_addPin`, `C07_addPin_builds_ports`, `C08_graph_ends_agree`, `C09_removeAllPins_partial`, `C09_removeAllPins_refuted`, `C102_boundary_partial`, `C102_boundary_refuted`, `C102_collect_partial`, `C102_collect_refuted`, `C102_lists`, `C102_nodes`, `C102_nodes_differ_refuted`, `C102_nodes_first`, `C102_radii_refuted`, `C102_read`, `C103_ascii_name_refuted`, `C103_binary_name_refuted`, `C103_binary_partial`, `C103_double_exact_refuted`, `C103_field_empty_refuted`, `C103_field_name_refuted`, `C103_int`, `C103_int_field`, `C103_int_vector_partial`, `C103_string_refuted`, `C104_cloud_exchanged_refuted`, `C104_cloud_label_refuted`, `C104_cloud_shared_refuted`, `C104_labels`, `C104_template`, `C107_strategy`, `C10_removePin_missing_refuted`, `C10_removePin_partial`, `C10_removePin_wrong_half_refuted`, `C113_dangling_refuted`, `C113_determined`, `C113_single`, `C113_values`, `C113_vertices`, `C117_repeatable`, `C117_signature_refuted`, `C117_xml`, `C11_removePins_dangling_refuted`, `C11_removePins_partial`, `C11_removePins_terminates_refuted`, `C125_read`, `C125_read_back`, `C125_segment_refuted`, `C127_again`, `C127_patch`, `C129_graph`, `C129_graph_partial`, `C129_zero_refuted`, `C12_exec_runs`, `C12_mandatory_ports`, `C131_custom_refuted`, `C131_numbers`, `C131_xml_partial`, `C134_lists`, `C135_annotations`, `C135_left_out_refuted`, `C135_no_blanks_partial`, `C135_other_group_refuted`, `C135_others`, `C135_pinned`, `C135_pins`, `C136_computed_partial`, `C136_polygons_refuted`, `C137_kept_refuted`, `C137_restored_partial`, `C138_one_partial`, `C138_second_refuted`, `C139_faces`, `C139_polyhedra`, `C139_shapes`, `C13_createPortIn_partial`, `C13_createPortIn_refuted`, `C13_createPortOut`, `C140_faces`, `C140_first_vertices_refuted`, `C140_old_map_refuted`, `C140_past_end_refuted`, `C140_patches`, `C141_free_point_refuted`, `C141_processes_partial`, `C142_boundary`, `C142_bulk`, `C142_no_map_refuted`, `C142_past_end_refuted`, `C143_last_name_refuted`, `C143_names_partial`, `C143_null_refuted`, `C143_options_partial`, `C143_overwrite_refuted`, `C143_pairs_partial`, `C143_points_only_refuted`, `C144_long_refuted`, `C144_low_pids_refuted`, `C144_pids`, `C145_bar_refuted`, `C145_blank_refuted`, `C145_ignored`, `C145_last_refuted`, `C145_short_line_refuted`, `C146_absent`, `C146_convert`, `C146_one_mode_partial`, `C146_types`, `C146_written_refuted`, `C147_once`, `C147_reference`, `C147_shifted`, `C147_wraps_refuted`, `C14_pin_delivery`, `C14_pin_delivery_user_types`, `C150_bare_refuted`, `C150_path`, `C151_between`, `C151_border_refuted`, `C152_again_refuted`, `C152_carried`, `C152_cloud_refuted`, `C152_incoherent_refuted`, `C153_few_refuted`, `C153_no_faces`, `C153_outside_refuted`, `C153_read`, `C153_unsupported`, `C154_back`, `C154_orphans_refuted`, `C154_same`, `C154_unknown`, `C155_back`, `C155_parts_refuted`, `C155_polyhedron_refuted`, `C156_back`, `C156_points_refuted`, `C156_polygon_refuted`, `C157_elements`, `C157_interface_refuted`, `C157_line_refuted`, `C157_mixed_refuted`, `C157_ten_refuted`, `C157_zones_refuted`, `C158_copy_refuted`, `C158_file`, `C158_given`, `C158_nothing_refuted`, `C158_processes_refuted`, `C158_stale_refuted`, `C158_twice`, `C158_type_refuted`, `C159_binary_refuted`, `C159_silent_refuted`, `C159_through`, `C15_round_trip_any_destination_partial`, `C15_round_trip_partial`, `C15_round_trip_refuted`, `C160_back`, `C160_file_refuted`, `C160_order`, `C161_back`, `C161_name_refuted`, `C167_back`, `C167_blank_refuted`, `C167_ids`, `C167_names`, `C167_nothing_refuted`, `C167_strategy_refuted`, `C168_back`, `C168_mode_refuted`, `C168_names`, `C168_partly`, `C168_tolerance_refuted`, `C16_map_merged_partial`, `C16_map_replaced_if_empty_partial`, `C16_map_replaced_refuted`, `C171_none`, `C171_only`, `C171_union`, `C173_conditions`, `C173_conditions_refuted`, `C173_first`, `C173_lists_refuted`, `C173_names`, `C173_stream`, `C174_assigned`, `C174_copied`, `C174_files`, `C174_files_refuted`, `C174_forced_refuted`, `C174_never_reused`, `C174_swapped`, `C174_unique`, `C175_log`, `C175_too_late`, `C176_count`, `C176_leak_refuted`, `C176_own`, `C177_copies`, `C177_in`, `C177_in_left`, `C177_out`, `C177_reflexive_refuted`, `C177_sound_refuted`, `C177_typed`, `C177_unchanged_refuted`, `C17_bad_section_skipped`, `C17_connections_restored`, `C17_file_round_trip`, `C17_no_wrong_pin`, `C17_order_partial`, `C17_order_refuted`, `C18_conflicts_stop_debug_builds`, `C18_registry`, `C18_stable`, `C19_create`, `C19_deleted_once`, `C19_same_creator_refuted`, `C20_deleted_with_last_owner`, `C20_shared_ownership`, `C21_complete`, `C22_any_order_partial`, `C22_duplicates_refuted`, `C22_keep_order`, `C23_merge`, `C25_cells`, `C25_lists`, `C25_points`, `C38_fill_out`, `C38_fill_partial`, `C38_fill_refuted`, `C38_get_end`, `C38_get_partial`, `C38_get_refuted`, `C38_get_total`, `C39_numbering`, `C39_offset`, `C42_truncated_message_fails`, `C43_streamed_pointer_partial`, `C43_streamed_pointer_refuted`, `C44_lookup_partial`, `C44_lookup_registers_refuted`, `C45_count_partial`, `C45_count_refuted`, `C46_both_checks`, `C46_ids_check`, `C46_resize`, `C46_resize_name_refuted`, `C46_undefined_refuted`, `C47_as_vector`, `C47_internal`, `C47_raw`, `C47_set_data`, `C48_initialize`, `C48_null_refuted`, `C50_int_valid_refuted`, `C50_set_location`, `C56_assign_partial`, `C60_corners`, `C65_count`, `C65_find`, `C65_logical_int`, `C65_logical_partial`, `C65_logical_refuted`, `C66_cells`, `C66_cells_inverse_partial`, `C66_cells_inverse_refuted`, `C66_vertices_distributed`, `C66_vertices_serial`, `C67_clean_refuted`, `C67_copy_refuted`, `C67_histories`, `C67_made`, `C67_swap_partial`, `C67_swap_refuted`, `C68_numbering_refuted`, `C68_total`, `C68_update`, `C69_cloud_refuted`, `C69_lists_refuted`, `C69_supported_partial`, `C79_assign`, `C80_add`, `C80_coherent`, `C81_lists`, `C82_cells`, `C82_vertices`, `C87_disjoint`, `C87_topology_refuted`, `C88_refused`, `C90_closed`, `C90_empty_refuted`, `C90_one`, `C90_parts`, `C91_border`, `C91_closed`, `C91_none`, `C93_inverse`, `C93_points`, `C94_add`, `C94_no_target`, `C94_null_refuted`, `C94_remove`, `C95_id`, `C95_mapping`, `C95_pid`, `C95_refused`, `C95_xml_refuted`, `C96_first`, `C96_geometry`, `C96_name`, `C96_no_mapping`, `C96_set`, `C96_xml`, `C96_xml_refuted`.
* `ClassicalDedekindReals.sig_forall_dec` - 28 theorems: `C100_located`, `C100_shared_located`, `C100_signed`, `C100_whole`, `C123_cloud`, `C130_same_process`, `C130_unfound_refuted`, `C132_empty_line_refuted`, `C132_last_vertex_refuted`, `C132_no_part_refuted`, `C132_no_textures_refuted`, `C132_order_refuted`, `C132_reads`, `C133_no_material_refuted`, `C133_no_normals_refuted`, `C133_second_part_refuted`, `C133_textures_refuted`, `C133_words_refuted`, `C133_written_partial`, `C141_points`, `C170_rows`, `C170_rows_refuted`, `C36_bend_setters`, `C37_moves`, `C63_reuse_partial`, `C82_cloud_refuted`, `C89_healthy`, `C94_remove_refuted`.
* `ClassicalDedekindReals.sig_forall_dec`, `ClassicalDedekindReals.sig_not_dec`, `Classical_Prop.classic`, `FunctionalExtensionality.functional_extensionality_dep` - 109 theorems: `C107_surface`, `C118_border_cells_refuted`, `C118_cells`, `C118_good`, `C118_processes`, `C118_same_centre_refuted`, `C118_status`, `C119_again`, `C119_history_partial`, `C119_history_refuted`, `C162_constant`, `C162_linear`, `C162_plane_refuted`, `C162_small_refuted`, `C24_cell_to_point`, `C24_cell_to_point_bounds`, `C24_cell_to_point_support`, `C24_degenerate_refuted`, `C24_missing_vertex_refuted`, `C24_point_to_cell_bounds`, `C24_point_to_cell_partial`, `C26_cell`, `C26_refuted`, `C26_total_partial`, `C27_cells_affine`, `C27_cells_between`, `C27_cells_bounded`, `C27_cells_exact`, `C27_integers`, `C27_integers_total`, `C27_points_affine`, `C27_points_between`, `C27_points_bounded`, `C27_points_exact`, `C27_points_local`, `C27_vectors`, `C28_setMesh`, `C29_box`, `C29_coordinates`, `C29_numbers`, `C29_sector_refuted`, `C29_shared_partial`, `C29_sphere_refuted`, `C29_wedge_refuted`, `C30_basic`, `C30_local_partial`, `C30_local_refuted`, `C30_world_partial`, `C30_world_refuted`, `C31_cells`, `C31_points`, `C31_tree_cells`, `C31_tree_points_partial`, `C31_tree_points_refuted`, `C32_refuted`, `C40_apply_partial`, `C40_bounds`, `C40_field`, `C40_mixture_partial`, `C40_null`, `C40_others`, `C40_point_refuted`, `C40_rigid`, `C40_total_partial`, `C40_unclamped_refuted`, `C41_kernels`, `C49_formula_partial`, `C49_linear_refuted`, `C49_maximum_refuted`, `C49_zero_gradient_partial`, `C51_boundary`, `C52_cells_complete_partial`, `C52_cells_sound`, `C52_points_complete_partial`, `C52_points_refuted`, `C52_points_sound`, `C52_sector_refuted`, `C52_wedge_refuted`, `C53_complete_partial`, `C53_refuted`, `C53_sound`, `C54_infimum`, `C54_periodic_refuted`, `C54_span`, `C55_flag_partial`, `C55_refuted`, `C56_refuted`, `C57_partial`, `C57_refuted`, `C58_spacing`, `C59_reachable`, `C59_setShape`, `C61_refuted`, `C61_regular`, `C61_same_place_partial`, `C62_rebuild`, `C62_refuted`, `C70_copies`, `C71_spline`, `C71_values`, `C72_bezier`, `C72_corner`, `C73_size_refuted`, `C73_total`, `C73_weights`, `C73_weights_refuted`, `C74_spline`, `C75_box`, `C75_continuous`.
* `ClassicalDedekindReals.sig_forall_dec`, `ClassicalDedekindReals.sig_not_dec`, `FunctionalExtensionality.functional_extensionality_dep` - 182 theorems: `C100_closest`, `C100_radius_refuted`, `C101_nearest`, `C105_clear_refuted`, `C105_coefficients_refuted`, `C105_force_refuted`, `C105_image`, `C105_labels`, `C105_mirror`, `C105_no_plane_refuted`, `C105_ports_refuted`, `C105_surface`, `C105_symmetric`, `C106_compose`, `C106_default_refuted`, `C106_frame`, `C106_no_direction_refuted`, `C106_rotated`, `C106_translated_partial`, `C106_translation_refuted`, `C107_again`, `C107_axes`, `C107_contains`, `C107_empty_refuted`, `C107_main_axis`, `C107_memory_refuted`, `C107_oriented`, `C107_parallel_refuted`, `C107_points_partial`, `C107_several_refuted`, `C107_slanted_refuted`, `C107_smallest`, `C107_tessellation`, `C107_tight`, `C108_distance`, `C108_enclosed_refuted`, `C108_external`, `C108_external_violation`, `C108_field_refuted`, `C108_isolated_refuted`, `C108_small`, `C108_violation`, `C110_bounds`, `C110_equilibrium`, `C110_monotone`, `C110_no_conditions_refuted`, `C110_relaxation_refuted`, `C110_steps`, `C110_superposition`, `C111_one_step`, `C111_slip_normal_refuted`, `C111_slip_plane_partial`, `C111_slip_surface_partial`, `C111_slip_surface_refuted`, `C111_steps`, `C111_translation`, `C114_distribution`, `C114_ends`, `C114_grid_refuted`, `C114_quality`, `C114_random`, `C114_seeds`, `C114_sensitivity_refuted`, `C116_min_distance`, `C120_angles_refuted`, `C120_default_refuted`, `C120_xml`, `C121_count`, `C121_curve`, `C121_defined`, `C121_even`, `C121_few_points_refuted`, `C122_again`, `C122_history_partial`, `C122_history_refuted`, `C124_ends`, `C124_length_partial`, `C124_length_refuted`, `C126_box`, `C126_contains`, `C126_processes`, `C136_length`, `C163_given`, `C163_linear`, `C163_plane_refuted`, `C163_turned`, `C165_best`, `C165_side`, `C165_small_refuted`, `C165_steep`, `C165_within`, `C166_ends`, `C166_final`, `C166_first`, `C166_one`, `C166_others`, `C166_reached`, `C166_several_refuted`, `C172_border`, `C172_orientation_refuted`, `C172_others`, `C172_owner_neighbour`, `C178_again`, `C178_magnitude`, `C178_zero`, `C179_absent`, `C179_axes`, `C179_axes_refuted`, `C179_boxes`, `C179_limits_refuted`, `C179_primitives`, `C179_radius`, `C179_selections`, `C29_total`, `C32_axes`, `C32_axes_accepted`, `C32_axis_nan`, `C32_axis_partial`, `C34_additive`, `C34_direction`, `C34_rigid`, `C34_rotation`, `C34_setAxis_refuted`, `C34_still`, `C35_distance`, `C35_negative`, `C35_negative_refuted`, `C35_twist_partial`, `C36_still`, `C41_compact_refuted`, `C41_defined`, `C41_diagonal`, `C41_greedy`, `C41_interpolation`, `C41_moved`, `C41_null_refuted`, `C41_outside`, `C41_parametrization`, `C73_displacements`, `C76_automatic`, `C76_field_list_refuted`, `C76_homogeneous`, `C76_list_geometry_refuted`, `C76_negative_refuted`, `C76_partial_field_refuted`, `C76_variable`, `C77_geometry`, `C77_geometry_radii`, `C77_list_geometry_refuted`, `C77_no_data_refuted`, `C77_refused`, `C77_scalar`, `C77_scalar_field_refuted`, `C77_stale_refuted`, `C78_pairs_partial`, `C78_reported`, `C78_triple_refuted`, `C86_clip`, `C86_cloud_refuted`, `C86_coefficients_partial`, `C86_coefficients_refuted`, `C86_later_refuted`, `C86_tolerance_refuted`, `C86_zero`, `C94_order_refuted`, `C94_vector`, `C97_complete`, `C97_exact_refuted`, `C98_distance`, `C98_enlarge_refuted`, `C98_lost_refuted`, `C98_project`, `C98_radii_refuted`, `C98_signed`, `C99_belongs`, `C99_concave_refuted`, `C99_distance_refuted`, `C99_locate`, `C99_pixel_refuted`, `C99_polygon`, `C99_segment`, `C99_triangle`.
* `ClassicalDedekindReals.sig_forall_dec`, `ClassicalDedekindReals.sig_not_dec`, `FunctionalExtensionality.functional_extensionality_dep`, `classic` - 4 theorems: `C112_default_refuted`, `C112_distance`, `C112_shape`, `C112_volume`.
* `ClassicalDedekindReals.sig_forall_dec`, `FunctionalExtensionality.functional_extensionality_dep` - 180 theorems: `C100_shared`, `C100_whole_shared_refuted`, `C101_first`, `C103_array`, `C103_array_field`, `C103_ascii`, `C103_double`, `C103_field`, `C103_vector_partial`, `C103_vector_refuted`, `C104_cloud_fields_partial`, `C104_cloud_points`, `C104_displs`, `C109_bounds`, `C109_closed`, `C109_constrained`, `C109_negative_refuted`, `C109_not_triangles`, `C109_pixel_refuted`, `C109_redgreen`, `C109_smoothing`, `C109_steps`, `C109_ternary`, `C113_order_refuted`, `C113_second_field_refuted`, `C115_sensitivity`, `C115_twice`, `C116_level_set`, `C116_none_asked_refuted`, `C116_repeated_refuted`, `C124_no_cells_refuted`, `C124_points`, `C126_empty_refuted`, `C128_custom_partial`, `C128_custom_refuted`, `C128_geom`, `C128_other_processes_partial`, `C128_other_processes_refuted`, `C128_refused`, `C128_serialize`, `C130_follows`, `C130_holes_refuted`, `C130_left_over_refuted`, `C130_serialize`, `C131_two_refuted`, `C139_orientation_partial`, `C142_average`, `C142_components`, `C142_no_value_refuted`, `C144_large_refuted`, `C144_long`, `C144_polygon_refuted`, `C144_short_partial`, `C145_exponent`, `C145_letter_refuted`, `C148_copy_refuted`, `C148_dual_refuted`, `C148_internal_refuted`, `C148_linked`, `C148_patches`, `C148_pids_refuted`, `C149_again_refuted`, `C149_arguments_refuted`, `C149_back`, `C149_settings`, `C149_surface`, `C149_target_refuted`, `C149_tolerance`, `C149_xml`, `C150_extract`, `C163_border`, `C163_dirichlet`, `C163_neumann`, `C164_balance`, `C164_cell`, `C164_ghost`, `C164_linear`, `C164_part_refuted`, `C169_any`, `C169_found`, `C169_interior`, `C169_interior_refuted`, `C169_missed`, `C169_none`, `C170_radius_refuted`, `C170_scattered`, `C170_serial`, `C170_shared`, `C171_lost_refuted`, `C171_order_refuted`, `C171_places_refuted`, `C28_build`, `C28_no_shape`, `C33_inverse`, `C33_products`, `C36_bend_partial`, `C36_bend_use_partial`, `C36_constant_refuted`, `C36_mean_fixed`, `C36_port_frame_refuted`, `C36_scale`, `C36_scale_mean`, `C36_translate`, `C37_executions`, `C37_filter_alone_refuted`, `C37_filter_partial`, `C37_foreign_refuted`, `C37_scalar`, `C37_twice_refuted`, `C37_use`, `C37_volume_refuted`, `C58_copy`, `C63_refuted`, `C64_output_partial`, `C64_twice_refuted`, `C79_clone`, `C79_clone_tolerance_refuted`, `C79_extract`, `C79_listed`, `C79_long_refuted`, `C79_map_refuted`, `C79_name`, `C79_resync`, `C79_stale_refuted`, `C79_subdivision`, `C80_construct`, `C80_no_connectivity_refuted`, `C80_polygon_refuted`, `C80_two_vertices_refuted`, `C80_type_refuted`, `C81_polyhedron_refuted`, `C81_rebuild_partial`, `C83_cloud`, `C83_part`, `C83_unknown`, `C84_after_refuted`, `C84_all`, `C84_cloud_refuted`, `C84_exact`, `C84_later_refuted`, `C84_requests_refuted`, `C85_cloud`, `C85_dual_refuted`, `C85_exact`, `C87_defined`, `C87_names_partial`, `C87_names_refuted`, `C87_negative_refuted`, `C87_polyhedron_refuted`, `C87_stitched`, `C88_area_partial`, `C88_block`, `C88_pixel_refuted`, `C88_triangulated`, `C89_collapse_refuted`, `C89_degraded_partial`, `C89_once`, `C89_parts_refuted`, `C89_pixel_refuted`, `C89_polygon_refuted`, `C89_polyhedron_refuted`, `C89_wedge_refuted`, `C91_mesh`, `C92_all`, `C92_cells`, `C92_nothing`, `C92_twice_refuted`, `C92_vertices`, `C92_vertices_refuted`, `C93_isolated_refuted`, `C94_location_refuted`, `C94_order`, `C94_scalar`, `C95_mapping_refuted`, `C96_first_refuted`, `C96_mean`, `C97_extract`, `C97_global`, `C97_root_refuted`, `C97_select`.
<!-- end axioms -->
