{"id": "C01", "title": "Chain keeps a dependency-respecting order under any insertion order", "statement": "If the pin graph among the objects is acyclic and is in place before the objects are added, then after any sequence of Chain::addObject calls on distinct objects (in any order) addObject terminates, the chain holds exactly the added objects, each with the id it was given, and every object stands after all of its parents that are in the chain.", "quantifier": "every finite acyclic pin graph, every insertion order, every iteration order of the parent/child tables", "why_tests_cant": "the recursion removes and re-inserts parents transitively; only a well-founded argument over all DAGs covers every insertion order", "anchors": ["src/core/Chain.cpp: Chain::addObject"]}
{"id": "C02", "title": "Chain::addObject reports wrong dependencies instead of failing to return", "statement": "addObject always returns, giving -1 when the object cannot be inserted because of wrong (circular) parent/child dependencies, as its documentation says.", "quantifier": "every pin graph, including cyclic ones, and every chain content", "why_tests_cant": "non-termination cannot be observed by a finite test", "anchors": ["src/core/Chain.cpp: Chain::addObject"]}
{"id": "C03", "title": "Chain::addObject returns the index of the inserted object", "statement": "The value returned by addObject is the index at which the object can be found in the chain right after the call.", "quantifier": "every acyclic pin graph, chain content and inserted object", "why_tests_cant": "depends on how many parents the call has to move, which is unbounded", "anchors": ["src/core/Chain.cpp: Chain::addObject"]}
{"id": "C04", "title": "Chain::exec runs every object once, parents first, or runs nothing", "statement": "Chain::exec either throws the loop error before executing any object, or executes every object of the chain exactly once in chain order with every parent in the chain executed before its children; it throws whenever the pin graph has a cycle inside the chain.", "quantifier": "every chain content and every pin graph, cyclic or not", "why_tests_cant": "all orders and all graphs must be covered, cycles of any length included", "anchors": ["src/core/Chain.cpp: Chain::exec, Chain::checkLoops"]}
{"id": "C05", "title": "The loop error is raised only for loops", "statement": "Chain::exec raises the loop error only if the pin graph restricted to the chain contains a cycle.", "quantifier": "every chain content and every pin graph, including pins added after the objects", "why_tests_cant": "ranges over all interleavings of pin creation and object insertion", "anchors": ["src/core/Chain.cpp: Chain::checkLoops"]}
{"id": "C06", "title": "Object ids in a chain are unique and usable for deletion", "statement": "Automatically assigned ids are pairwise distinct over any sequence of addObject/deleteObject calls, deleteObject(id) removes exactly the object carrying that id and leaves every other object in place and in the same order, and this remains so in a clone of the chain, which holds the same objects with the same ids in the same order.", "quantifier": "every sequence of addObject (automatic id), deleteObject and clone calls", "why_tests_cant": "an id collision appears only for particular histories", "anchors": ["src/core/Chain.cpp: Chain::addObject, Chain::deleteObject, Chain::clone"]}
{"id": "C07", "title": "addPin links exactly when the ports allow it", "statement": "pin::addPin returns true exactly when the sender can send, the receiver can receive, both ports exist and their container and data types are equal (or the link is forced); then exactly one link is added on both sides and the parent/child multiplicities grow by one; otherwise no link or multiplicity changes.", "quantifier": "every pair of objects with any port tables and links, including sender = receiver", "why_tests_cant": "cross product of port tables, connection types, and aliasing", "anchors": ["src/core/MimmoNamespace.cpp: addPin, checkCompatibility", "src/core/BaseManipulation.cpp: addPinIn, addPinOut, addChild, addParent"]}
{"id": "C08", "title": "Both ends of the pin graph agree", "statement": "After any sequence of addPin calls, for every pair of objects and every receiver port the number of output links of the sender to that port equals the number of input links of that port from the sender, and getParent/getChild list exactly the objects linked by at least one pin, with multiplicity equal to the number of links.", "quantifier": "every finite history of addPin calls over any set of objects", "why_tests_cant": "a global invariant of a doubly linked structure over all histories", "anchors": ["src/core/MimmoNamespace.cpp: addPin", "src/core/BaseManipulation.cpp: addParent, addChild"]}
{"id": "C09", "title": "removeAllPins removes every pin between two objects and nothing else", "statement": "After pin::removeAllPins(A,B) no pin from A to B is left, A is not a parent of B any more, and all other pins are untouched.", "quantifier": "every consistent pin graph, including several pins between the same two ports/objects", "why_tests_cant": "index drift shows only for particular multiplicities and orders of links", "anchors": ["src/core/MimmoNamespace.cpp: removeAllPins", "src/core/BaseManipulation.cpp: removePinIn, removePinOut"]}
{"id": "C10", "title": "removePin removes exactly one pin, or does nothing", "statement": "pin::removePin(A,B,s,r) removes the pin from port s of A to port r of B if it exists, and otherwise does nothing; other pins and the parent/child tables stay consistent.", "quantifier": "every consistent pin graph and every port pair", "why_tests_cant": "depends on the relative position of all other links on both ports", "anchors": ["src/core/MimmoNamespace.cpp: removePin", "src/core/BaseManipulation.cpp: removePinIn, removePinOut, unsetParent, unsetChild"]}
{"id": "C11", "title": "Destroying or clearing an object terminates and leaves no dangling link", "statement": "removePins()/clear()/destructor of an object always terminate, and afterwards no other object has a link to it.", "quantifier": "every pin graph reachable through the public pin functions", "why_tests_cant": "non-termination and dangling links appear only after particular histories", "anchors": ["src/core/BaseManipulation.cpp: removePinsIn, removePinsOut, clear, ~BaseManipulation"]}
{"id": "C12", "title": "Mandatory ports are enforced by exec", "statement": "In safe mode BaseManipulation::exec throws before executing anything iff some mandatory port of family 0 is unlinked or some non-zero family with mandatory ports has none linked; in expert mode it never throws for this reason; if it does not throw, execute() runs exactly when the object is active, and afterwards every linked output port is executed.", "quantifier": "every table of input/output ports with any families and links", "why_tests_cant": "all combinations of families and links", "anchors": ["src/core/BaseManipulation.cpp: BaseManipulation::exec"]}
{"id": "C13", "title": "Ports can be created iff the name is free on that side", "statement": "createPortIn(name) succeeds iff the name is a registered port and the object has no input port of that name yet; createPortOut likewise for output ports; a successful creation adds exactly that port and a failed one changes nothing.", "quantifier": "every sequence of createPortIn/createPortOut calls with arbitrary names", "why_tests_cant": "interaction between the two port tables over arbitrary histories", "anchors": ["src/core/BaseManipulation.tpp: createPortIn, createPortOut"]}
{"id": "C14", "title": "A value sent on a pin is the value received, at every execution", "statement": "Each time an output port is executed, every linked input port receives exactly the value returned by the getter at that time, whatever was sent through the same port before.", "quantifier": "every history of executions, every value sequence of any port data type, any number of receivers", "why_tests_cant": "stale bytes of a longer, earlier message stay in the reused buffer; all length histories must be considered", "anchors": ["src/core/InOut.cpp: PortOut::exec, cleanBuffer", "src/core/InOut.tpp: writeBuffer, readBuffer", "src/common/mimmo_binary_stream.tpp"]}
{"id": "C15", "title": "Binary stream operators round-trip every supported type", "statement": "Reading from a stream what was written with the matching operator gives back an equal value and leaves the read position right after it, for strings, vectors, arrays, pairs, maps and arbitrary nestings of them, FileDataInfo and pierced vectors.", "quantifier": "every type of the family and every value, with any bytes following in the buffer", "why_tests_cant": "nested variable-length data: all shapes and sizes", "anchors": ["src/common/mimmo_binary_stream.tpp", "src/common/mimmo_binary_stream.cpp", "src/core/MimmoNamespace.cpp: FileDataInfo operators", "src/core/MimmoPiercedVector.tpp"]}
{"id": "C16", "title": "Reading a map replaces the destination", "statement": "After reading a map from a stream the destination holds exactly the entries that were written, whatever it held before, as is the case for vectors and strings.", "quantifier": "every written map and every previous content of the destination", "why_tests_cant": "interaction with arbitrary prior state", "anchors": ["src/common/mimmo_binary_stream.tpp: operator>> for std::map and std::unordered_map"]}
{"id": "C17", "title": "Connections written to a configuration file are restored", "statement": "Flushing the connections of a set of named blocks to XML and absorbing them into freshly created blocks of the same names and ports recreates the same pins, in the same order on each port; an unknown block or port in the file never creates a wrong pin.", "quantifier": "every set of blocks, ports and pins; every configuration content", "why_tests_cant": "all graphs and all malformed inputs", "anchors": ["src/core/IOConnections.cpp: absorbConnections, flushConnections"]}
{"id": "C18", "title": "Port registry ids are stable and unique", "statement": "PortManager ids of ports, containers and data types are assigned consecutively, never change, distinct names have distinct ids, and a port name keeps the container and data type of its first registration.", "quantifier": "every sequence of addPort calls", "why_tests_cant": "invariant over all registration histories", "anchors": ["src/common/portManager.hpp: addPort"]}
{"id": "C19", "title": "Factory creates with the last registered creator", "statement": "Factory::create(name) uses the most recently added creator for name, returns null iff no creator is registered (never added or removed), and other names are unaffected.", "quantifier": "every sequence of addCreator/removeCreator/create calls", "why_tests_cant": "refinement to a map over all histories", "anchors": ["src/common/factory.hpp"]}
{"id": "C20", "title": "Shared pointers free an object exactly once and never too early", "statement": "Over any sequence of constructions, copies, moves, assignments, swaps, resets and destructions of MimmoSharedPointer (raw pointers being wrapped only once), the counter equals the number of owners, an object is deleted exactly when its last owner goes, and it is never deleted twice or accessed after deletion.", "quantifier": "every history of operations on any number of pointers and objects, self-assignment included", "why_tests_cant": "memory safety over all aliasing histories", "anchors": ["src/core/MimmoSharedPointer.tpp"]}
{"id": "C21", "title": "completeMissingData yields a complete field without touching given data", "statement": "completeMissingData(v) returns false and changes nothing if the field has no geometry or has an id unknown to the geometry; otherwise afterwards the field has exactly one value for every element of its location, old values are unchanged and new ones equal v.", "quantifier": "every geometry, location and field content", "why_tests_cant": "needs a counting (pigeonhole) argument over all id sets", "anchors": ["src/core/MimmoPiercedVector.tpp: completeMissingData, checkDataIdsCoherence, checkDataSizeCoherence"]}
{"id": "C22", "title": "Filtering a field by an id list keeps exactly the listed entries", "statement": "squeezeOutExcept(list) keeps exactly the entries whose id is in the list, with unchanged values, keeping their order when asked to; it works for any list, with duplicates or unknown ids.", "quantifier": "every field and every id list or set, both values of keepOrder", "why_tests_cant": "all lists, duplicates included", "anchors": ["src/core/MimmoPiercedVector.tpp: squeezeOutExcept"]}
{"id": "C23", "title": "getDataFrom merges fields exactly", "statement": "getDataFrom(other, strict) overwrites exactly the common ids with the other's values, adds the remaining ids iff not strict, and returns the number of entries written.", "quantifier": "every pair of fields", "why_tests_cant": "all id overlaps", "anchors": ["src/core/MimmoPiercedVector.tpp: getDataFrom"]}
{"id": "C24", "title": "Point/cell data conversion is an average", "statement": "pointDataToCellData and cellDataToPointData give each element a convex combination of the data of the adjacent elements: constants are preserved and values stay between the minimum and maximum of the contributing data; elements with no contributing data get no value.", "quantifier": "every mesh connectivity, geometry with non-coincident centres, exponent and field", "why_tests_cant": "real-valued inequality over all meshes and fields", "anchors": ["src/core/MimmoPiercedVector.tpp: pointDataToCellData, cellDataToPointData"]}
{"id": "C25", "title": "Structured mesh index maps are mutually inverse", "statement": "accessPointIndex(i,j,k) and its inverse, and accessCellIndex and its inverse, are bijections between the index triples of the mesh and 0..N-1.", "quantifier": "every mesh dimension and every index", "why_tests_cant": "unbounded integer arithmetic", "anchors": ["src/core/BasicMeshes.cpp: accessPointIndex, accessCellIndex"]}
{"id": "C26", "title": "locateCellByPoint returns the cell containing the point", "statement": "For a point inside the mesh locateCellByPoint returns indices of a cell whose local box contains the point, and for any point the indices are valid.", "quantifier": "every built mesh and every point", "why_tests_cant": "real arithmetic with clamping, all dimensions", "anchors": ["src/core/BasicMeshes.cpp: locateCellByPoint"]}
{"id": "C27", "title": "Mesh interpolation reproduces and bounds the data", "statement": "interpolatePointData uses non-negative weights with sum one, so that it stays within the bounds of the data, reproduces constants and reproduces the data exactly at the mesh points; interpolateCellData likewise with respect to the cell centres.", "quantifier": "every built mesh, every data field, every point", "why_tests_cant": "real-valued identities over all inputs", "anchors": ["src/core/BasicMeshes.cpp: interpolatePointData, interpolateCellData"]}
{"id": "C28", "title": "A built lattice has consistent sizes and spacing", "statement": "After build the dimensions are at least the minimum allowed for the shape, there are exactly dim-1 intervals per direction, and the points cover the span from the local origin to its end with constant spacing.", "quantifier": "every requested dimension, span and shape", "why_tests_cant": "all integer/real combinations", "anchors": ["src/core/BasicMeshes.cpp: build, setDimension"]}
{"id": "C29", "title": "Lattice degrees of freedom are numbered 0..N-1 without gaps", "statement": "After build every lattice point has a degree-of-freedom label in 0..getNNodes()-1, every label is used, accessDOFFromGrid and accessGridFromDOF are consistent, and two grid points share a label only if they are the same geometrical point.", "quantifier": "every shape type, dimension and span", "why_tests_cant": "collapsing of poles and periodic seams for all dimensions", "anchors": ["src/core/Lattice.cpp: reduceDimToDOF, resizeMapDof, accessDOFFromGrid, accessGridFromDOF"]}
{"id": "C30", "title": "Shape coordinates transform back and forth", "statement": "toLocalCoord(toWorldCoord(p)) = p for every local point in the parameter range of the shape, toWorldCoord(toLocalCoord(x)) = x for every world point, and likewise for localToBasic/basicToLocal.", "quantifier": "every shape (cube, cylinder, sphere, wedge), span, origin, infimum, scaling and orthonormal axes", "why_tests_cant": "trigonometric identities over all reals", "anchors": ["src/core/BasicShapes.cpp: toWorldCoord, toLocalCoord, basicToLocal, localToBasic"]}
{"id": "C31", "title": "Inclusion and exclusion are complementary", "statement": "includeGeometry/excludeGeometry, includeCloudPoints/excludeCloudPoints return disjoint lists whose union is the whole set of elements.", "quantifier": "every geometry, point cloud and shape", "why_tests_cant": "set algebra over all inputs, sortedness assumptions included", "anchors": ["src/core/BasicShapes.cpp: includeGeometry, excludeGeometry, includeCloudPoints, excludeCloudPoints"]}
{"id": "C32", "title": "setRefSystem leaves an orthonormal frame", "statement": "setRefSystem(axis0,axis1,axis2) and setRefSystem(label,axis) leave the shape with an orthonormal reference system (up to the stated tolerance), or unchanged if the input is rejected.", "quantifier": "every input axes", "why_tests_cant": "all real vectors, degenerate ones included", "anchors": ["src/core/BasicShapes.cpp: setRefSystem"]}
{"id": "C33", "title": "3x3 matrix helpers are correct", "statement": "inverse(M) is the two-sided inverse of every M with non-zero determinant, transpose is the transpose, and matmul is associative with matrix-vector multiplication from both sides.", "quantifier": "every 3x3 real matrix", "why_tests_cant": "real-valued identities", "anchors": ["src/core/BasicShapes.cpp: inverse, transpose, matmul"]}
{"id": "C34", "title": "Rotation is a rigid motion about the axis", "statement": "With unit filter RotationGeometry moves every vertex by a rigid motion: distances are preserved, points of the axis are fixed, rotations about the same axis compose additively, and rotation by 0 or a null filter does not move anything.", "quantifier": "every axis, angle and point set", "why_tests_cant": "trigonometric identities over all reals", "anchors": ["src/manipulators/RotationGeometry.cpp: execute, setDirection, setAxis"]}
{"id": "C35", "title": "Twist grows linearly with the distance and is capped", "statement": "TwistGeometry rotates a vertex about the axis by the angle alpha*min(1,|d|/D) with the sign of d if symmetric and no rotation for negative d otherwise, for every sign of alpha; axis points are fixed and the distance from the axis is preserved.", "quantifier": "every axis, alpha, maximum distance and point", "why_tests_cant": "all sign combinations over the reals", "anchors": ["src/manipulators/TwistGeometry.cpp: execute"]}
{"id": "C36", "title": "Scale, translate and bend do what their parameters say", "statement": "ScaleGeometry multiplies offsets from the centre componentwise (and keeps the mean point fixed when it is chosen as the centre), TranslationGeometry moves all vertices by alpha*direction, BendGeometry adds the polynomial displacement in the local frame; zero filter gives zero displacement.", "quantifier": "every geometry, parameters and filter", "why_tests_cant": "real-valued identities over all vertex sets", "anchors": ["src/manipulators/ScaleGeometry.cpp", "src/manipulators/TranslationGeometry.cpp", "src/manipulators/BendGeometry.cpp"]}
{"id": "C37", "title": "Apply moves each vertex by factor times its filtered displacement", "statement": "Apply::execute moves each vertex of the geometry by factor*filter*displacement, a vertex without displacement or with an input that is not linked to the geometry does not move, and executing twice with the same inputs applies the same displacement twice.", "quantifier": "every geometry, displacement field, filter and number of executions", "why_tests_cant": "stateful in-place filtering over arbitrary histories", "anchors": ["src/manipulators/Apply.cpp: execute, checkInput", "src/core/BaseManipulation.cpp: _apply"]}
{"id": "C38", "title": "Vector subset helpers take the documented range", "statement": "getVectorSubset(i,j,source) returns the elements with index in [i,j), the complement wrapped around when i>j, and the whole source when the range covers it; fillVectorSubset writes exactly these positions.", "quantifier": "every vector and every pair of integers", "why_tests_cant": "all boundary combinations", "anchors": ["src/common/customOperators.hpp: getVectorSubset, fillVectorSubset"]}
{"id": "C39", "title": "Ghost point numbering is globally consecutive", "statement": "In a distributed geometry the consecutive ids assigned to the interior vertices of all ranks are pairwise distinct and are exactly 0..N-1, and each ghost gets the id of its owner.", "quantifier": "every number of ranks and every distribution of vertices", "why_tests_cant": "all rank counts and partitions", "anchors": ["src/core/MimmoObject.cpp: updatePointGhostExchangeInfo"]}
{"id": "C40", "title": "FFD deformation is a partition of unity of control displacements", "statement": "FFDLattice applies to each vertex in the lattice a convex combination of control node displacements weighted by non-negative basis functions with sum one: equal displacements of all nodes translate the geometry inside rigidly, null displacements do nothing, and vertices outside are not moved.", "quantifier": "every lattice size, degree, weights, displacement and vertex", "why_tests_cant": "recursive basis functions over all degrees and knots", "anchors": ["src/manipulators/FFDLattice.cpp"]}
{"id": "C41", "title": "RBF kernels are compact and interpolation is exact", "statement": "The compactly supported kernels of MRBF vanish outside the support radius and are within [0,1] inside, the displacement of a vertex outside every support is zero, and in interpolation mode the field reproduces the prescribed displacement at every node.", "quantifier": "every node set, radius, kernel and vertex", "why_tests_cant": "real-valued, all node sets", "anchors": ["src/manipulators/MRBF.cpp"]}
{"id": "C42", "title": "A truncated message is never accepted", "statement": "If the bytes of a written value are cut anywhere before their end, reading them back as that type never succeeds: the reader runs out of bytes and reports it, whatever the destination held.", "quantifier": "every streamable type, every value, every strict prefix of its bytes, every destination", "why_tests_cant": "all values and all cut points", "anchors": ["src/core/InOut.tpp", "src/core/MimmoPiercedVector.tpp: operator>>", "src/core/InOut.cpp: operator>>"]}
{"id": "C43", "title": "A shared pointer received through a stream or port is valid", "statement": "A MimmoSharedPointer read from a stream (hence by the input port of a connected block) shares the ownership of the object with the pointer that was written: the object is alive and counted once more.", "quantifier": "every history of pointers, streams and executions, every getter", "why_tests_cant": "memory safety over all lifetimes of the sender's pointer", "anchors": ["src/core/MimmoSharedPointer.tpp: operator<<, operator>>", "src/core/InOut.tpp: writeBuffer, readBuffer"]}
{"id": "C44", "title": "Looking up a port does not register it", "statement": "PortManager::getPortData(name) never changes the registry: an unregistered name stays unregistered.", "quantifier": "every registry reachable by addPort calls, every name, debug and release builds", "why_tests_cant": "all registries and names; the assertion hides it in debug builds", "anchors": ["src/common/portManager.hpp: getPortData"]}
{"id": "C45", "title": "addCreator returns the number of registered creators", "statement": "Factory::addCreator returns the current number of registered creators, as documented.", "quantifier": "every history of the factory", "why_tests_cant": "all histories", "anchors": ["src/common/factory.hpp: addCreator"]}
{"id": "C46", "title": "Coherence checks tell exactly whether a field matches its geometry", "statement": "checkDataIdsCoherence holds iff the field has a geometry, a location and only ids of that location; together with checkDataSizeCoherence it holds iff there is exactly one value per element; resizeToCoherentDataIds returns a copy with exactly the entries on elements of the geometry, in order.", "quantifier": "every field, geometry and location", "why_tests_cant": "counting argument over all sets of ids", "anchors": ["src/core/MimmoPiercedVector.tpp: checkDataSizeCoherence, checkDataIdsCoherence, resizeToCoherentDataIds"]}
{"id": "C47", "title": "Vectors read from a field follow the promised order", "statement": "getDataAsVector lists the values of a complete field in the order of the geometry or of increasing ids; getRawDataAsVector lists all values in the field's order or by increasing ids; setData followed by getRawDataAsVector gives the data back.", "quantifier": "every field and order of ids", "why_tests_cant": "all orders of insertion", "anchors": ["src/core/MimmoPiercedVector.tpp: getDataAsVector, getRawDataAsVector, setData, getGeometryIds"]}
{"id": "C48", "title": "initialize creates a constant field on the whole location", "statement": "initialize(geo, loc, v) with a valid geometry and location leaves exactly the value v on every element of the location, whatever the field held before; with an invalid geometry or location the field is unchanged.", "quantifier": "every geometry (or none), location, value and previous field", "why_tests_cant": "all previous states", "anchors": ["src/core/MimmoPiercedVector.tpp: initialize"]}
{"id": "C49", "title": "Reconstruction of vertex data with gradients is exact for linear fields", "statement": "cellDataToPointData with gradients puts on each vertex the weighted average of the values extrapolated from the adjacent cells with their gradients, hence reproduces linear fields exactly; with maximum it is the simple average.", "quantifier": "every mesh, field and gradient", "why_tests_cant": "all fields; a constant field hides the error", "anchors": ["src/core/MimmoPiercedVector.tpp: cellDataToPointData(gradients)"]}
{"id": "C50", "title": "Integer locations", "statement": "setDataLocation(int) selects UNDEFINED, POINT, CELL, INTERFACE for 0..3 and UNDEFINED for any other integer; intIsValidLocation(i) holds iff 0<=i<=3.", "quantifier": "every integer", "why_tests_cant": "all integers", "anchors": ["src/core/MimmoPiercedVector.tpp: setDataLocation, intIsValidLocation"]}
{"id": "C51", "title": "Boundary interface data", "statement": "pointDataToBoundaryInterfaceData gives a value exactly to the border interfaces whose vertices all have a value: the inverse distance weighted average of these values.", "quantifier": "every mesh, point field and exponent", "why_tests_cant": "all meshes and partial fields", "anchors": ["src/core/MimmoPiercedVector.tpp: pointDataToBoundaryInterfaceData"]}
{"id": "C52", "title": "Selections through search trees equal the one by one selections", "statement": "includeGeometry and includeCloudPoints on a geometry, which visit its search trees, return exactly the cells whose vertices, and the points that, are in the shape, each once.", "quantifier": "every shape, every geometry and every valid search tree of it", "why_tests_cant": "the tree may discard a branch only for particular placements of its boxes with respect to the shape", "anchors": ["src/core/BasicShapes.cpp: BasicShape::searchBvTreeMatches, searchKdTreeMatches, intersectShapeAABBox, getTempBBox, checkNearestPointToAABBox, intersectShapePlane"]}
{"id": "C53", "title": "Point inclusion is exact up to its tolerance", "statement": "isPointIncluded(p) is true for every point of the volume of the shape and false for every point out of the shape enlarged by 1e-12 in normalised coordinates.", "quantifier": "every shape with its span, infimum, origin and frame, and every point", "why_tests_cant": "the set of points is continuous and the exceptions are lower dimensional", "anchors": ["src/core/BasicShapes.cpp: BasicShape::isPointIncluded, isSimplexIncluded, toLocalCoord, localToBasic"]}
{"id": "C54", "title": "Shape sizes are kept as given", "statement": "After setSpan getSpan returns the absolute values given, limited by the whole turn and by the polar range; setInfLimits sets the infimum within its range without changing the span; the azimuth is periodic only if it makes a whole turn.", "quantifier": "every shape, every history of calls and every value", "why_tests_cant": "the sizes depend on the history of the calls and on real values", "anchors": ["src/core/BasicShapes.cpp: BasicShape::setSpan, getSpan, setInfLimits, checkSpan, setScaling, checkInfLimits"]}
{"id": "C55", "title": "isBuilt tells that the mesh agrees with its shape", "statement": "Whenever isBuilt() returns true, the points and cells of the mesh are those that build() would make again: no later call has changed the shape or the sizes under them.", "quantifier": "every history of calls on a mesh", "why_tests_cant": "depends on the history of the calls", "anchors": ["src/core/BasicMeshes.cpp: build, isBuilt, setSpan, setInfLimits, setDimension, setShape, setOrigin, setRefSystem"]}
{"id": "C56", "title": "Assigning a mesh makes the meshes equal", "statement": "After a = b, the mesh a has the shape, sizes, points and flags of b.", "quantifier": "every two meshes a program can hold", "why_tests_cant": "all pairs of histories", "anchors": ["src/core/BasicMeshes.cpp: UStructMesh::operator=, swap, UStructMesh(const UStructMesh &)"]}
{"id": "C57", "title": "A mesh depends only on the calls made", "statement": "Two runs that make the same calls on a mesh obtain the same shape and sizes.", "quantifier": "every history and every content of uninitialised memory", "why_tests_cant": "uninitialised memory often holds the same values in tests", "anchors": ["src/core/BasicMeshes.cpp: setShape(ShapeType)"]}
{"id": "C58", "title": "A spacing gives the nearest number of intervals", "statement": "setMesh with a spacing builds a mesh whose number of intervals in each direction is the span divided by the spacing, rounded to the nearest integer, and at least the minimum of the shape; a null spacing gives the minimum.", "quantifier": "every origin, span, type, shape and spacing", "why_tests_cant": "real-valued inputs", "anchors": ["src/core/BasicMeshes.cpp: setMesh"]}
{"id": "C59", "title": "Changing the type of shape keeps the placement", "statement": "setShape(type) on a mesh that has a shape keeps its origin and reference system, and keeps span and lower limits if the type is the same.", "quantifier": "every mesh a program can hold and every type", "why_tests_cant": "all histories and real values", "anchors": ["src/core/BasicMeshes.cpp: setShape(ShapeType)"]}
{"id": "C60", "title": "Cell neighbours are its eight corners", "statement": "getCellNeighs of a cell returns eight distinct valid point numbers, exactly the corners of the cell.", "quantifier": "every mesh dimension and every cell", "why_tests_cant": "unbounded integer arithmetic", "anchors": ["src/core/BasicMeshes.cpp: getCellNeighs, accessPointIndex"]}
{"id": "C61", "title": "Lattice points in the same place share a degree of freedom", "statement": "After build, two grid points of a lattice with the same global coordinates have the same degree-of-freedom number: moving a control node cannot tear the lattice apart.", "quantifier": "every shape type, dimension, span and pair of points", "why_tests_cant": "all pairs of points of all lattices, on axes, seams, poles and edges", "anchors": ["src/core/Lattice.cpp: resizeMapDof, reduceDimToDOF", "src/core/BasicShapes.cpp: toWorldCoord"]}
{"id": "C62", "title": "Clearing a lattice leaves an empty lattice", "statement": "After clearLattice the lattice has no nodes: getNNodes returns 0, the lists of coordinates are empty, and a new build makes it usable again.", "quantifier": "every built lattice", "why_tests_cant": "every history before the call", "anchors": ["src/core/Lattice.cpp: clearLattice, getNNodes, getGlobalCoords, getLocalCoords"]}
{"id": "C63", "title": "A manipulator can be used again on the same geometry", "statement": "A Rotation/Twist/Scale/Translation/BendGeometry object without filter that is executed again after the geometry changed moves all vertices the geometry has then.", "quantifier": "every history of executions and changes of the geometry in between", "why_tests_cant": "arbitrary histories of one object", "anchors": ["src/manipulators/TranslationGeometry.cpp: checkFilter", "src/core/MimmoPiercedVector.tpp: completeMissingData"]}
{"id": "C64", "title": "ApplyFilter gives the filtered displacement", "statement": "The output of ApplyFilter is factor*filter*displacement at each vertex of the geometry (factor 1 if none is given), and executing it again with the same inputs gives the same output.", "quantifier": "every geometry, displacement field, filter, factor and number of executions", "why_tests_cant": "stateful in-place filtering over arbitrary histories", "anchors": ["src/manipulators/ApplyFilter.cpp: execute, checkInput"]}
{"id": "C65", "title": "The small vector and string helpers do what they document", "statement": "logical_summing gives target, union or difference of two flags according to the highest policy set, findPosition/posVectorFind/checkVectorFind find the first occurrence of an element or report that there is none, countSubstring returns the number of non overlapping occurrences and terminates.", "quantifier": "every flag combination, vector, element, string and sub-string", "why_tests_cant": "all inputs", "anchors": ["src/common/customOperators.hpp: logical_summing, posVectorFind, checkVectorFind, findPosition", "src/common/customOperators.cpp: countSubstring"]}
{"id": "C66", "title": "The maps between ids and consecutive numbers are inverse of each other", "statement": "getMapData and getMapDataInv are inverse of each other: they relate each vertex (each interior vertex, without ghosts) to its consecutive number, which is its position when the geometry is not distributed. getMapCell and getMapCellInv do the same for cells.", "quantifier": "every geometry, every set of ids and every choice of ghost entities", "why_tests_cant": "the ids can be any numbers and the partition any; tests use ids equal to positions, for which a wrong lookup is not seen", "anchors": ["src/core/MimmoObject.cpp: getMapData, getMapDataInv, getMapCell, getMapCellInv"]}
{"id": "C67", "title": "A structure reported synchronized describes the geometry as it is", "statement": "Whenever a geometry reports SYNC for its tree of cells, tree of vertices, adjacencies, interfaces, numbering of cells, bounding box or point connectivity, the content of that structure is what would be built from the vertices and cells the geometry has now.", "quantifier": "every type of geometry and every sequence of calls that add, move, clean, build, update, swap, copy or reset", "why_tests_cant": "staleness shows only after particular interleavings of changes and builds; the number of histories is unbounded", "anchors": ["src/core/MimmoObject.cpp: addVertex, modifyVertex, addConnectedCell, addCell, buildSkdTree, buildKdTree, buildPatchInfo, updateAdjacencies, updateInterfaces, cleanGeometry, setUnsyncAll, update, resetPatch, reset, swap, MimmoObject(const MimmoObject &), buildPointConnectivity"]}
{"id": "C68", "title": "An update makes current again every structure that had been built", "statement": "update() leaves SYNC each structure that had been built before and has become old, computes the bounding box, builds nothing that had never been built, does not change vertices and cells, and ends without error if the vertices of the cells exist. Cells are numbered after it.", "quantifier": "every history of calls before the update", "why_tests_cant": "each combination of seven statuses can occur before an update", "anchors": ["src/core/MimmoObject.cpp: update, buildPatchInfo, resetPatch, reset"]}
{"id": "C69", "title": "The tree of cells is available for every geometry but point clouds", "statement": "isSkdTreeSupported answers true exactly for geometries that are not point clouds, however the object was obtained, and building a supported tree never goes through a null pointer.", "quantifier": "every way to obtain a geometry (constructors, copy, reset) and every history of calls", "why_tests_cant": "all constructors and all sequences of resets are concerned", "anchors": ["src/core/MimmoObject.cpp: MimmoObject(int, dvecarr3E &, livector2D *, bool), MimmoObject(const MimmoObject &), resetPatch, isSkdTreeSupported, buildSkdTree, cleanSkdTree"]}
{"id": "C70", "title": "Copies of a lattice answer as the original", "statement": "A copy of a built lattice, the two lattices after an exchange and a lattice assigned from another have the count, the numbers of the degrees of freedom and the coordinates of the lattice they come from.", "quantifier": "every pair of built lattices", "why_tests_cant": "lattices of every shape, size and state are concerned", "anchors": ["src/core/Lattice.cpp: Lattice(const Lattice &), swap"]}
{"id": "C71", "title": "FFD displacement is the rational B-spline of the control nodes", "statement": "On a lattice whose directions are clamped, the displacement of a vertex in the box is the weighted mean of the displacements of the control nodes by the products of the B-spline basis functions of the requested degrees (Cox - de Boor recursion on clamped knots averaged from equally spaced nodes) and the nodal weights.", "quantifier": "every solid shape, number of nodes, degree, positive weights, displacement, vertex", "why_tests_cant": "recursive basis functions of all degrees, over all real coordinates", "anchors": ["src/manipulators/FFDLattice.cpp: nurbsEvaluator, basisITS0, setKnotsStructure, getKnotInterval"]}
{"id": "C72", "title": "FFD interpolates the corners and is a Bezier volume at maximal degree", "statement": "On clamped directions a vertex at a corner of the lattice moves exactly by the displacement of the corner node, for every degree and weights; when the degrees are the numbers of nodes less one, the displacement is the rational Bezier form with Bernstein polynomials, as the documentation says.", "quantifier": "every lattice, degree, positive weights, displacement", "why_tests_cant": "all degrees and real coordinates", "anchors": ["src/manipulators/FFDLattice.cpp: setLattice, nurbsEvaluator"]}
{"id": "C73", "title": "Building an FFD lattice keeps displacements and weights of the nodes", "statement": "build ends for every solid shape, clamps the degrees between one and the number of nodes less one, keeps the displacements of the nodes and pads with null ones, gives each node the last weight set by the user, and a list of displacements that does not fit the number of nodes is refused as documented.", "quantifier": "every lattice and sequence of calls before build", "why_tests_cant": "histories of setters and builds are unbounded", "anchors": ["src/manipulators/FFDLattice.cpp: build, setNodalWeight, setDisplacements"]}
{"id": "C74", "title": "FFD with periodic or symmetric directions wraps or mirrors the control nodes", "statement": "Along a clamped, periodic or symmetric direction the displacement of a vertex in the box is the rational B-spline of the control nodes; beyond the ends of a periodic direction the nodes continue from the other end, and beyond the ends of a symmetric one they are mirrored.", "quantifier": "every solid shape, number of nodes, degree, coordinate type other than unclamped, positive weights, displacements, vertex", "why_tests_cant": "all degrees, all real coordinates, all combinations of the three coordinate types", "anchors": ["src/manipulators/FFDLattice.cpp: setMapNodes, setKnotsStructure, nurbsEvaluator"]}
{"id": "C75", "title": "FFD does not tear the geometry", "statement": "The displacement of a vertex depends continuously on its position in the box: displacements of vertices that tend to a vertex tend to its displacement, including across the seam of a cylinder whose azimuth is periodic.", "quantifier": "every solid shape without unclamped directions, number of nodes, degree, positive weights, displacements, sequence of points", "why_tests_cant": "continuity speaks about all points near a point; knots make it piecewise", "anchors": ["src/manipulators/FFDLattice.cpp: nurbsEvaluator, getKnotInterval, setMapNodes", "src/core/Lattice.cpp: resizeMapDof"]}
{"id": "C76", "title": "Support radii of RBF nodes are the ones asked for", "statement": "The radius with which a node of MRBF acts is the one given for it, or the homogeneous radius set last (a fraction of the diagonal of the geometry, or an absolute length), or, when none was set, one computed from the data; giving a radius or a list of radii replaces what was asked before.", "quantifier": "every geometry, node set, displacements, sequence of radius setters, kernel and mode", "why_tests_cant": "all sequences of setters with all real values, including lists and fields of wrong length", "anchors": ["src/manipulators/MRBF.cpp: setSupportRadiusLocal, setSupportRadiusReal, setVariableSupportRadii, computeEffectiveSupportRadiusList, initRBFwGeometry"]}
{"id": "C77", "title": "RBF displacements given as scalars, lists or fields give the same deformation", "statement": "Scalar displacements move each vertex along its normal by the evaluated scalar; nodes and displacements taken from a cloud give the same displacements as the same values listed by hand; an execution that is refused leaves the object and the geometry unchanged.", "quantifier": "every geometry, cloud, displacement field, vertex", "why_tests_cant": "all clouds with all orders of ids, all mixes of lists and fields, executions after executions", "anchors": ["src/manipulators/MRBF.cpp: setDisplacements, setScalarDisplacements, initRBFwGeometry, execute, apply"]}
{"id": "C78", "title": "Duplicated RBF nodes are all reported", "statement": "Of every two nodes within the tolerance the check for duplicated nodes reports one, so that removing the reported nodes leaves nodes farther apart than the tolerance; nodes without neighbour are not reported.", "quantifier": "every list of nodes and tolerance", "why_tests_cant": "all numbers and positions of nodes", "anchors": ["src/manipulators/MRBF.cpp: checkDuplicatedNodes, removeDuplicatedNodes"]}
{"id": "C79", "title": "Part identifiers list and extract exactly the cells that carry them", "statement": "After any sequence of calls that add or delete cells, assign part identifiers (one cell, a list, a map) or names, resynchronise or clone, the part identifier of every cell is listed, with one name; the cells extracted for an identifier are exactly those that carry it; the subdivision puts each cell in exactly one part; resyncPID lists exactly the identifiers in use and keeps their names; a clone has the same cells, identifiers and names.", "quantifier": "every history of calls, every geometry, identifier, name and id", "why_tests_cant": "all interleavings of assignments, deletions, maps on subsets and identifiers of any size", "anchors": ["src/core/MimmoObject.cpp: setPID, setPIDCell, setPIDName, resyncPID, extractPIDCells, extractPIDSubdivision, getCompactPID, clone"]}
{"id": "C80", "title": "Only meaningful connectivities become cells", "statement": "A cell is added exactly when its connectivity is one of its element type and its id is free, and nothing changes otherwise; a geometry built from lists of vertices and connectivities has these vertices, and as cells exactly the lists that describe elements of its type, in order and unchanged; without connectivity it is a cloud.", "quantifier": "every list of numbers, element type, mesh type, id", "why_tests_cant": "all connectivities of all lengths, including streams of faces of polyhedra", "anchors": ["src/core/MimmoObject.cpp: MimmoObject(int, dvecarr3E &, livector2D *, bool), addConnectedCell, checkCellConnCoherence, desumeElement"]}
{"id": "C81", "title": "A geometry can be rebuilt from its coordinates and compact connectivity", "statement": "The coordinates of the vertices and the compact connectivity of a geometry, given to the constructor, build a geometry with the same cells, in the same order, whose vertices are at the same places; the other lists of connectivity give the ids of the patch unchanged.", "quantifier": "every geometry, numbering of vertices and cells, element types", "why_tests_cant": "all numberings with gaps and in any order, all mixes of elements including polyhedra", "anchors": ["src/core/MimmoObject.cpp: getVerticesCoords, getCompactConnectivity, getConnectivity, getCellConnectivity, getMapDataInv"]}
{"id": "C82", "title": "Lists of vertices and cells correspond exactly", "statement": "The vertices of a list of cells are exactly the vertices of these cells, once each; the cells of a list of vertices are exactly those with all (strict) or some (not strict) of their vertices in the list, once each.", "quantifier": "every geometry, list with repetitions and unknown ids", "why_tests_cant": "all lists on all meshes, including elements with streams of faces", "anchors": ["src/core/MimmoObject.cpp: getVertexFromCellList, getCellFromVertexList"]}
{"id": "C83", "title": "A selection makes exactly the part extracted", "statement": "The geometry made by a selection has exactly the cells extracted from the target, unchanged and with their ids, exactly the vertices of these cells at the same places, exactly the part identifiers of these cells with their names, and the tolerance and type of the target; for a cloud it has exactly the vertices extracted.", "quantifier": "every geometry built by the API, every set of cells or vertices extracted", "why_tests_cant": "all geometries, element types, numberings and part identifiers", "anchors": ["src/geohandlers/GenericSelection.cpp: execute"]}
{"id": "C84", "title": "Selection by part identifier takes exactly the cells asked", "statement": "After any sequence of requests to activate and deactivate part identifiers, before or after the geometry is linked, the selection by PID gives exactly the cells whose identifier is asked, the dual selection exactly the other cells, asking for all gives all the cells, and executing again gives the same result.", "quantifier": "every geometry, history of requests, identifiers present or not", "why_tests_cant": "all interleavings of requests and all distributions of identifiers", "anchors": ["src/geohandlers/SelectionByPID.cpp: setGeometry, setPID, removePID, syncPIDList, extractSelection"]}
{"id": "C85", "title": "Selection by lists of elements takes exactly the cells listed", "statement": "The selection by lists gives exactly the cells listed and the cells all of whose vertices are listed (for a cloud, the vertices listed), ids that are not in the geometry being ignored, and the dual selection exactly the others.", "quantifier": "every geometry, lists of vertices and cells with unknown ids", "why_tests_cant": "all lists on all meshes", "anchors": ["src/geohandlers/SelectionByElementList.cpp: extractSelection"]}
{"id": "C86", "title": "Clipping keeps exactly one side of the plane", "statement": "Clipping a geometry with a plane keeps exactly the cells whose centroid is strictly on the side where the normal points, or on the other side if inside out, whatever the length of the normal and the way the plane is given; changing origin or normal changes the next clipping; clouds are clipped by vertices; the tolerance of the target is kept.", "quantifier": "every plane, geometry and position of centroids", "why_tests_cant": "all real planes and centroids, all orders of calls", "anchors": ["src/geohandlers/ClipGeometry.cpp: setClipPlane, setOrigin, setNormal, execute, clipPlane"]}
{"id": "C87", "title": "Stitching keeps every cell of every geometry", "statement": "The stitched geometry, before coincident vertices are merged, has the vertices and cells of all the geometries one after the other, each cell with its type, its vertices at the same places in the same order and its part identifier shifted by one number for each geometry; with the reassignment of identifiers, different geometries never share one; names are kept; it works for every topology.", "quantifier": "every list of geometries in any order, with any numbering, element types and part identifiers", "why_tests_cant": "all numberings, orders and identifiers, polyhedra and polygons of any size", "anchors": ["src/geohandlers/StitchGeometry.cpp: StitchGeometry(int), addGeometry, execute"]}
{"id": "C88", "title": "Triangulation replaces each cell by its triangles", "statement": "triangulate() leaves a surface whose cells are all triangles: the triangles it had, untouched, two triangles for each quadrilateral and one triangle for each side of a polygon around one new vertex; each triangle has the part identifier of its cell; ids are new and distinct, the vertices, identifiers and names stay; the vector area is the same. The triangulator block does so on a copy unless told to work on the target.", "quantifier": "every surface with any numbering, mix of triangles, quadrilaterals, pixels and polygons of any size", "why_tests_cant": "all meshes, numberings and polygon sizes; the ids given while cells are being deleted", "anchors": ["src/core/MimmoObject.cpp: triangulate", "src/geohandlers/SurfaceTriangulator.cpp: execute, getGeometry"]}
{"id": "C89", "title": "Degenerate elements are degraded or deleted, healthy ones are left alone", "statement": "degradeDegenerateElements() replaces each element that has vertices at the same place by the element made with its distinct vertices, with the same id and part identifier, deletes it when no such element exists, leaves healthy elements as they are, and leaves no degenerate element; vertices collapsed into another are no longer used.", "quantifier": "every geometry, any element types, numbering and any coincidences of vertices", "why_tests_cant": "all patterns of coincidences between and inside cells", "anchors": ["src/core/MimmoObject.cpp: degradeDegenerateElements, desumeElement"]}
{"id": "C90", "title": "Parts of a mesh and closed meshes", "statement": "decomposeLoop() returns the parts of the mesh connected through faces: every cell in exactly one part, once, and two cells in the same part exactly when a chain of cells sharing faces joins them; isClosedLoop() says true exactly when no face of a cell is free.", "quantifier": "every mesh, numbering and order of neighbours, with any number of cells on a face", "why_tests_cant": "all graphs of adjacency, including faces shared by more than two cells where only one neighbour is followed at a time", "anchors": ["src/core/MimmoObject.cpp: decomposeLoop, isClosedLoop"]}
{"id": "C91", "title": "The border of a geometry is made of its free faces", "statement": "extractBoundaryFaceCellID, extractBoundaryCellID and extractBoundaryVertexID (and the getBorder calls) return exactly the free faces, the cells that have them and their vertices; extractBoundaryMesh returns one cell for each free face with the part identifier of the cell it bounds, on the vertices of the free faces with their ids and places; a closed mesh and a cloud have no border; the border of a conforming volume is a closed surface.", "quantifier": "every geometry after any history, every mesh and numbering", "why_tests_cant": "all meshes; closure of the border is a parity property of the whole mesh", "anchors": ["src/core/MimmoObject.cpp: extractBoundaryFaceCellID, extractBoundaryCellID, extractBoundaryVertexID, extractBoundaryInterfaceID, extractBoundaryMesh"]}
{"id": "C92", "title": "Narrow bands around a surface", "statement": "getCellsNarrowBandToExtSurface(WDist) and getVerticesNarrowBandToExtSurface(WDist) return the cells (by centre) and the vertices closer to the surface than the given distance, with their distances: from a list of seeds, exactly those joined to a seed by neighbours inside the band; without seeds, all of them; nothing when the target is not a surface.", "quantifier": "every mesh, neighbourhood, seeds, distances and threshold", "why_tests_cant": "all graphs and distance fields; completeness of a front that advances", "anchors": ["src/core/MimmoObject.cpp: getCellsNarrowBandToExtSurfaceWDist, getVerticesNarrowBandToExtSurfaceWDist"]}
{"id": "C93", "title": "Connectivities between vertices and cells", "statement": "getInverseConnectivity() maps each vertex of a cell, and no other, to a cell that has it; after buildPointConnectivity() the vertices connected to a vertex are exactly the other ends of the edges at it, each once; a vertex without edges has no connected vertices.", "quantifier": "every geometry, numbering and order of the cells", "why_tests_cant": "all meshes and orders of cells", "anchors": ["src/core/MimmoObject.cpp: getInverseConnectivity, buildPointConnectivity, getPointConnectivity"]}
{"id": "C94", "title": "Fields rebuilt from the fields of sub-patches", "statement": "ReconstructScalar and ReconstructVector give, on every element of the target and on nothing else, the maximum, minimum, mean or sum of the values the given fields have on that element (for vectors the longest or the shortest), zero where no field has one, and the restriction of this field to each sub-patch; the result does not depend on the order of the fields; removeData takes away the fields of a sub-patch and no other; addData refuses fields without geometry or with another data location.", "quantifier": "every target, list of fields, overlap of their sub-patches and criterium", "why_tests_cant": "all overlaps, orders and numbers of fields", "anchors": ["src/geohandlers/ReconstructScalar.cpp: execute, overlapFields, addData, removeData", "src/geohandlers/ReconstructVector.cpp: execute, overlapFields"]}
{"id": "C95", "title": "Fields extracted on a portion of a geometry", "statement": "ExtractScalarField and its copies for vectors, longs and strings give some of the entries of the field, each once and unchanged: by id, those whose id is an element of the target; by part identifier, those on the cells (or their vertices) whose identifier is one of the target; by mapping, those on the cells of the target found near the geometry of the field. Without a target or with a field that is not coherent with its geometry the result is left as it was.", "quantifier": "every target, geometry, field and location", "why_tests_cant": "all meshes, numberings and partial fields", "anchors": ["src/geohandlers/ExtractScalarField.cpp: extract, extractID, extractPID, extractMapping", "src/geohandlers/ExtractFields.cpp: setMode, absorbSectionXML"]}
{"id": "C96", "title": "Fields chosen in a list by geometry, name or mapping", "statement": "SelectScalarField and its copies give the first field on the geometry set, or the first with the name set, and false with an empty field if there is none; by mapping, every element of the target reached by the fields has the mean of their values there (the first value for longs and strings) and no other element has one. Only fields of the location of the block and with a geometry enter the list, in the order given.", "quantifier": "every list of fields, target and mode", "why_tests_cant": "all lists and overlaps", "anchors": ["src/geohandlers/SelectScalarField.cpp: mSelect, addField, setFields", "src/geohandlers/SelectField.cpp: absorbSectionXML"]}
{"id": "C97", "title": "Cells selected near another surface with the search trees", "statement": "selectByPatch (and its parallel variant) walks two trees of boxes and gives the cells of the leaves of the target whose box, enlarged by the tolerance, meets the box of a leaf of the selection; every cell of the target that has a point within the tolerance of a point of the selection is among them, none twice. selectByGlobalPatch does the same against the boxes of every rank.", "quantifier": "every pair of trees with nested boxes, tolerance and number of ranks", "why_tests_cant": "all trees and shapes of the boxes", "anchors": ["src/core/SkdTreeUtils.cpp: selectByPatch, extractTarget, selectByGlobalPatch"]}
{"id": "C98", "title": "Distance from a surface, signed distance and projection", "statement": "distance gives the distance of the nearest point of the surface if it is within the radius, and the maximum double otherwise; signedDistance gives the same value with the sign of the side of the surface normals and a unit normal; projectPoint gives the nearest point of the surface (within twice the tolerance of the patch for points closer than the tolerance), enlarging the radius when nothing is found, and leaves its inputs alone.", "quantifier": "every surface, point, radius and tolerance", "why_tests_cant": "all points in space and all surfaces", "anchors": ["src/core/SkdTreeUtils.cpp: distance, signedDistance, projectPoint, computePseudoNormal"]}
{"id": "C99", "title": "Points on a cell of a surface", "statement": "isPointInsideSegment, isPointInsideTriangle and isPointInsidePolygon accept every point of the element, and with a null tolerance only those; locatePointOnPatch gives, for a point on the surface, a cell the point is on, and the null id if it is on none; distancePointPolygon is zero on the points of the polygon.", "quantifier": "every element, point and tolerance", "why_tests_cant": "all positions of the point and shapes of the element", "anchors": ["src/core/MimmoCGUtils.cpp: isPointInsideSegment, isPointInsideTriangle, isPointInsidePolygon, distancePointPolygon", "src/core/SkdTreeUtils.cpp: locatePointOnPatch, checkPointBelongsToCell"]}
{"id": "C100", "title": "Distances and location of points on a surface spread over processes", "statement": "signedGlobalDistance and locatePointOnGlobalPatch, called by all the processes with their own points, never block whatever the schedule and the buffering of messages, and give every point the normal, sign and membership computed by the owner of its closest cell; with shared points every process gets the same result; the closest cell of a shared point is the nearest of all the processes within the radius given.", "quantifier": "every number of processes, distribution of points and cells, schedule and choice of buffering", "why_tests_cant": "all interleavings of messages and all distributions", "anchors": ["src/core/SkdTreeUtils.cpp: signedGlobalDistance, locatePointOnGlobalPatch, findSharedPointClosestGlobalCell"]}
{"id": "C101", "title": "Projection of points on a surface spread over processes", "statement": "projectPointGlobal gives every point of every process the projection found with the first radius (enlarged by half every time, finally unlimited) that reaches the surface, at the position of the point in the input; the points of other processes do not matter; points are left where they are only when there is no surface.", "quantifier": "every number of processes, points, radii and surface", "why_tests_cant": "all histories of found and missed points over the rounds", "anchors": ["src/core/SkdTreeUtils.cpp: projectPointGlobal"]}
{"id": "C102", "title": "Data shared between processes", "statement": "The data process 0 reads from a file (GenericInput, GenericInputMPVData, the boundary conditions of IOCGNS) are, after the exchange, the data of every process. The field GenericOutputMPVData writes has the entries of the fields of all processes, one for each id. The nodes, displacements and radii of an RBF block given on a distributed geometry are the same on every process: those of all processes by increasing id. The exchanges end on every process whatever the order in which processes run and whether or not sends are buffered.", "quantifier": "every number of processes, every value of every type with stream operators, every distribution of the entries, every schedule and every choice of the library between copying a message and waiting", "why_tests_cant": "a test runs one number of processes and one schedule; deadlocks and mixed messages depend on message sizes and timing, and the data of the processes can overlap in any way", "anchors": ["src/iogeneric/GenericInput.tpp: GenericInput::sendReadDataToAllProcs, GenericInputMPVData::sendReadDataToAllProcs", "src/iogeneric/GenericOutput.tpp: collectDataFromAllProcs", "src/iocgns/IOCGNS.cpp: communicateAllProcsStoredBC", "src/manipulators/MRBF.cpp: initRBFwGeometry"]}
{"id": "C103", "title": "Files of generic data", "statement": "Data written by GenericOutput / GenericOutputMPVData in a comma separated, binary or text file and read by GenericInput / GenericInputMPVData are the data written: scalars, vectors, arrays and fields with name, location and entries; integers exactly, doubles with the digits of the file (six in comma separated files), binary data exactly.", "quantifier": "every value, every length, every name, every content of the variables read into, every number of entries and of digits", "why_tests_cant": "a test writes a few values; the loss of a last element, of a name, of digits depends on the lengths, the characters and the size of the numbers", "anchors": ["src/iogeneric/GenericOutput.tpp: ofstreamcsv, ofstreamcsvend, GenericOutputMPVData::execute", "src/iogeneric/GenericInput.tpp: ifstreamcsv, ifstreamcsvend, GenericInputMPVData::_setResult"]}
{"id": "C104", "title": "Files of labelled displacements and clouds of points", "statement": "The displacements GenericDispls writes are read back with six digits, each with its label; missing labels are completed with new ones, different from each other and from those given; a template is read as zero displacements. The points IOCloudPoints writes, from one or more processes, are read back with their labels, and every point has after reading the values of the scalar and vector fields it had when written, zero if it had none.", "quantifier": "every list of labels and displacements, every cloud, every field, every number of processes, every content of the variables read into", "why_tests_cant": "a test reads one file, usually with labels 0, 1, 2 in order; what happens to the fields depends on the labels and their order", "anchors": ["src/iogeneric/GenericDispls.cpp: read, write", "src/iogeneric/IOCloudPoints.cpp: read, write", "src/core/MimmoPiercedVector.tpp: completeMissingData"]}
{"id": "C105", "title": "Mirroring a cloud of points across a plane", "statement": "SpecularPoints returns the points given, with their ids and data, followed by the mirror images of the points that lie on the chosen side of the plane (of the points on the plane too, if forced); an image carries the scalar of its point and the mirrored vector, has a new id that no process uses and a vertex cell; the plane is the last one set, by coefficients, by point and normal or through the ports; with a surface everything is projected on it.", "quantifier": "every plane, cloud, number of processes, data with missing values, and sequence of settings and executions", "why_tests_cant": "the images depend on real coordinates and on the normalisation of the plane, new ids on what all processes hold, and the plane used on the calls made before", "anchors": ["src/utils/SpecularPoints.cpp: execute, setPlane, setOrigin, setNormal, clear", "src/utils/ProjPatchOnSurface.cpp: projection"]}
{"id": "C106", "title": "Rotating a reference system and translating a point", "statement": "RotationAxes turns a reference system, with every point attached to it, by the angle given about the axis given; axes keep lengths, angles and orientation, executing again gives the same result and two rotations add up; the system not set is the canonical one. TranslationPoint moves a point along the direction given by the value given.", "quantifier": "every axis, angle, reference system, direction, value and state left by earlier calls", "why_tests_cant": "the claims range over all real directions and angles; tests use unit directions and set every member", "anchors": ["src/utils/RotationAxes.cpp: execute, setDirection, constructors", "src/utils/TranslationPoint.cpp: setDirection, execute"]}
{"id": "C107", "title": "Boxes around geometries", "statement": "The boxes of AABBox and OBBox contain every vertex of every geometry of every process and are as small as their axes allow (spans are not null); frames are orthonormal and right-handed; the axes of OBBox are ordered by variance, with the variance that of the points of the surface whatever its tessellation and partition; with the strategy of least volume the smaller box is given; the box does not depend on the order of the geometries.", "quantifier": "every list of geometries, partition among processes, axes given and eigenvalues, with equal ones too", "why_tests_cant": "tests use one geometry and compare a few numbers; the claims range over all clouds and surfaces, partitions, axes and over what memory contains", "anchors": ["src/utils/AABBox.cpp: execute, setAxes", "src/utils/OBBox.cpp: execute, computeOBB, computeAABB, evaluatePointsCovarianceMatrix, evaluateElementsCovarianceMatrix, eigenVectors, adjustBasis, setOBBStrategyInt"]}
{"id": "C108", "title": "Controls of the deformation", "statement": "The violation given by ControlDeformMaxDistance is, for each vertex of each process, the distance of its deformed position from the surface not deformed less the limit, and it is positive if and only if some vertex ends up farther than the limit; displacements not longer than the limit violate nothing. The violation given by ControlDeformExtSurface is negative if and only if every deformed vertex is on the side of the constraints where the geometry is and farther than the tolerance from each of them. Displacements missing in the field are null, whatever the field linked.", "quantifier": "every geometry, partition among processes, deformation field (with missing data too), limit, tolerance, list of constraint surfaces and distance within the reach of the search", "why_tests_cant": "tests use a sphere with one field and look at one number; the claims range over all fields, surfaces, partitions and sequences of search radii", "anchors": ["src/utils/ControlDeformMaxDistance.cpp: execute, getViolation, setLimitDistance", "src/utils/ControlDeformExtSurface.cpp: execute, evaluateSignedDistance, getViolation, setTolerance", "src/core/MimmoPiercedVector.tpp: completeMissingData, checkDataIdsCoherence, checkDataSizeCoherence"]}
{"id": "C109", "title": "Refinement and smoothing of surfaces", "statement": "RefineGeometry keeps the surface: refining a mesh of triangles leaves every vertex where it was, replaces each triangle by triangles of equal area, with its part and way round, that have exactly its points, and leaves no hanging vertices, so closed surfaces stay closed. Each step takes one triangle to four (red-green) or three (ternary); a ternary step takes a polygon to the triangles of its edges with the mean of its vertices, of the same total area. When only some cells are active, those split in four are the least set with the active cells and every cell with two faces beside such cells; the others beside one are split in two and the rest untouched. Smoothing changes no cells, never moves constrained vertices and, as executed, moves each vertex six tenths of the way to the mean of its neighbours, so no vertex leaves a half-space that has them all.", "quantifier": "every mesh of triangles (polygons for ternary), set of active cells, number of refinement and smoothing steps, part and position", "why_tests_cant": "tests refine one sphere and count cells; the spreading of the refinement is a fixed point over adjacencies of unbounded meshes and conformity is a statement on all edges", "anchors": ["src/geohandlers/RefineGeometry.cpp: execute, ternaryRefine, ternaryRefineCell, redgreenRefine, redRefineCell, greenRefineCell, smoothing, checkTriangulation"]}
{"id": "C110", "title": "Propagation of scalar fields", "statement": "PropagateScalarField gives a field on all the vertices that has exactly the prescribed values where there are conditions and, elsewhere, is in equilibrium under the pulls of the linked vertices (mean diffusivity over the square of the distance, relaxed in the narrow band for farther vertices). There is exactly one such field. It stays within the prescribed values, is greater for greater conditions, is linear in them and does not depend on the number of steps.", "quantifier": "every mesh with linked vertices apart, positive diffusivity, narrow band, positive relaxation, conditions to which every vertex is tied by links, number of steps, and solver that solves the systems that have a solution", "why_tests_cant": "tests compare a norm on one mesh; solvability and the maximum principle are statements on all meshes and conditions", "anchors": ["src/propagators/PropagateField.cpp: PropagateScalarField::execute, setSolverMultiStep", "src/propagators/PropagateField.tpp: assignBCAndEvaluateRHS, modifyStencilsForNarrowBand, setNarrowBandRelaxation", "src/propagators/StencilFunctions.cpp: computeLaplacianStencils"]}
{"id": "C111", "title": "Propagation of displacements", "statement": "PropagateVectorField gives a displacement that is exactly that prescribed where there are conditions, null on periodic borders without, and whose components stay within those prescribed, for any number of steps in between which the mesh moves; the mesh is at the end as it was. If everything prescribed is one translation, all is translated. In a step each component is in equilibrium; vertices of slip walls end on the plane or surface they slip on, at the projection of where they would have gone.", "quantifier": "every mesh, diffusivity and band as functions of the deformed mesh, conditions, periodic borders, number of steps and threshold of update; slip walls in one step", "why_tests_cant": "the rows of the system are a mixture of those of earlier steps depending on what moved; that this never breaks solvability, exactness or bounds must hold for all histories", "anchors": ["src/propagators/PropagateField.cpp: PropagateVectorField::execute, assignBCAndEvaluateRHS, computeSlipBCCorrector, initializeSlipSurfaceAsPlane, apply, restoreGeometry, subdivideBC, propagateMaskMovingPoints"]}
{"id": "C112", "title": "Artificial diffusivity near surfaces", "statement": "With damping by distance the diffusivity of a cell is greatest, (outer/inner)^decay, up to the inner distance, then (outer/distance)^decay, without a jump, never increasing and one at the outer distance. With damping by volume it is one plus the range of the volumes over that of the cell, to a power that goes from one to zero between the distances; so never below one. The parameters not set have values with which it is a number.", "quantifier": "every distance, positive decay, inner below outer distance, list of volumes", "why_tests_cant": "a law on real numbers and lists of any length", "anchors": ["src/propagators/PropagateField.tpp: updateDampingFunction, setDefaults, setDampingInnerDistance, setDampingOuterDistance, setDampingDecayFactor"]}
{"id": "C113", "title": "Conditions from patches to vertices", "statement": "The vertices with a condition are exactly those of the patches given; each has the value of the field on its patch, zero if the field has none there or the patch has no field. All the conditions added are used, and the result does not depend on addresses.", "quantifier": "every list of patches and fields, in every order of the unordered sets; every number of calls", "why_tests_cant": "the order of sets of pointers and the moves of a growing vector differ from run to run; a test sees one", "anchors": ["src/propagators/PropagateField.tpp: distributeBCOnBoundaryPoints", "src/propagators/PropagateField.cpp: PropagateScalarField::addDirichletConditions", "src/propagators/PropagateField.hpp: m_tempDirichletBcs, m_dirichletBcs"]}
{"id": "C114", "title": "Points spread on a surface", "statement": "With the random and the grid engines CreateSeedsOnSurface gives as many points as asked, all different candidates on the surface, the first the nearest to the seed. Any two of them are farther apart than getMinDistance returns (positions being measured from the first and multiplied by the sensitivity), and no candidate is much farther than that from all of them, so that one point more could not be placed at more than 20/9 of it. The execution ends.", "quantifier": "every list of candidates, sensitivities, number of points and initial distance", "why_tests_cant": "The choice is greedy with a radius reduced until a candidate is left: that the points stay apart, and that the loop ends, depends on all the candidates and on how many of them coincide.", "anchors": ["src/utils/CreateSeedsOnSurface.cpp: decimatePoints", "src/utils/CreateSeedsOnSurface.cpp: solveGrid", "src/utils/CreateSeedsOnSurface.cpp: solveRandom", "src/utils/CreateSeedsOnSurface.cpp: getMinDistance"]}
{"id": "C115", "title": "Sensitivity of the seeds", "statement": "The sensitivity used to spread points goes from 0 at the least value given to 1 at the greatest, in proportion between them; it is 1 everywhere if the values do not differ. Executing again does not change it.", "quantifier": "every field of values", "why_tests_cant": "It must hold for every field, also constant ones and negative values.", "anchors": ["src/utils/CreateSeedsOnSurface.cpp: normalizeField", "src/utils/CreateSeedsOnSurface.cpp: setSensitivityMap"]}
{"id": "C116", "title": "Points spread by distances on the surface", "statement": "The level set engine gives as many vertices as asked, all different: the nearest to the seed, and then each time one where the distance on the surface from those already chosen, times the sensitivity, is greatest. getMinDistance is the least distance between two of them.", "quantifier": "every set of vertices, distance on the surface, sensitivity and number of points", "why_tests_cant": "Each vertex depends on all those before it, and on whether any is left with a positive sensitivity.", "anchors": ["src/utils/CreateSeedsOnSurface.cpp: solveLSet", "src/utils/CreateSeedsOnSurface.cpp: getMinDistance"]}
{"id": "C117", "title": "Repeatable random points, and their settings in XML", "statement": "A random distribution can be repeated exactly by fixing it, with the signature of the execution, at any other time. The settings written to XML and read back give an equal object.", "quantifier": "every setting, time and generator", "why_tests_cant": "It ranges over all the signatures and settings, and over two executions at different times.", "anchors": ["src/utils/CreateSeedsOnSurface.cpp: setRandomFixed", "src/utils/CreateSeedsOnSurface.cpp: setRandomSignature", "src/utils/CreateSeedsOnSurface.cpp: flushSectionXML", "src/utils/CreateSeedsOnSurface.cpp: absorbSectionXML"]}
{"id": "C118", "title": "Checks on the quality of a mesh", "statement": "MeshChecker reports a mesh as good exactly when the volumes of its cells, the ratios of the volumes of adjacent cells, the angles between faces and the directions across them, and the part of the area of each cell whose faces look outwards are all within the tolerances. Otherwise the status is that of the first check, by number, which failed, and the cells written out are those that fail. With several processes all get the same status, the one of the whole mesh.", "quantifier": "every mesh with cells of positive volume, every set of tolerances, every partition", "why_tests_cant": "It must hold for every mesh and set of tolerances, and for any combination of checks which fail.", "anchors": ["src/utils/MeshChecker.cpp: checkMeshQuality", "src/utils/MeshChecker.cpp: checkVolume", "src/utils/MeshChecker.cpp: checkSkewness", "src/utils/MeshChecker.cpp: checkFaceValidity", "src/utils/MeshChecker.cpp: execute"]}
{"id": "C119", "title": "A mesh is checked for itself", "statement": "The status that MeshChecker reports depends on the mesh and the tolerances only, not on meshes checked before with the same object. Executing again on the same mesh gives the same status.", "quantifier": "every sequence of meshes and executions", "why_tests_cant": "It ranges over all the histories of an object.", "anchors": ["src/utils/MeshChecker.cpp: execute", "src/utils/MeshChecker.cpp: setGeometry", "src/utils/MeshChecker.cpp: checkMeshQuality"]}
{"id": "C120", "title": "Tolerances of the checks in XML", "statement": "The tolerances of MeshChecker written to XML and read back are the same.", "quantifier": "every set of tolerances", "why_tests_cant": "It must hold for every value and for values left to their defaults.", "anchors": ["src/utils/MeshChecker.cpp: flushSectionXML", "src/utils/MeshChecker.cpp: absorbSectionXML", "src/utils/MeshChecker.cpp: setMaximumSkewnessTolerance", "src/utils/MeshChecker.cpp: setMaximumBoundarySkewnessTolerance"]}
{"id": "C121", "title": "Curve through points", "statement": "Create3DCurve gives a curve through the points given, in their order, straight from each to the next (and from the last to the first if it is closed), with as many cells as asked, if they are enough to join the points. The points given keep their identifiers and their values, points added lie on the segments and have values in proportion. The pieces of segments that were divided are never shorter than half of any other cell.", "quantifier": "every list of points with any identifiers, fields, number of cells, and any choice among equally long segments", "why_tests_cant": "The number of divisions and the order in which segments are divided depend on all the lengths; it must hold for every list of points.", "anchors": ["src/iogeneric/Create3DCurve.cpp: execute", "src/iogeneric/Create3DCurve.cpp: fillPreliminaryStructure", "src/iogeneric/Create3DCurve.cpp: refineObject"]}
{"id": "C122", "title": "A curve depends on its own points", "statement": "Executing Create3DCurve again without changes gives a curve as fine as before; with other points it gives the curve a new object with the same settings would give.", "quantifier": "every sequence of lists of points", "why_tests_cant": "It ranges over the histories of an object.", "anchors": ["src/iogeneric/Create3DCurve.cpp: execute", "src/iogeneric/Create3DCurve.cpp: setNCells"]}
{"id": "C123", "title": "Cloud of points", "statement": "CreatePointCloud gives a cloud with the points given, a cell for each, and the values given for them, zero where there are none; values for other identifiers are ignored.", "quantifier": "every list of points and of values", "why_tests_cant": "It must hold for every set of identifiers, also when points and values do not match.", "anchors": ["src/iogeneric/CreatePointCloud.cpp: execute", "src/iogeneric/CreatePointCloud.cpp: setRawPoints", "src/iogeneric/CreatePointCloud.cpp: setRawScalarField", "src/iogeneric/CreatePointCloud.cpp: setRawVectorField"]}
{"id": "C124", "title": "A projected segment is a chain of evenly spaced points", "statement": "With n cells (n at least 1) the segment from A to B gives n+1 vertices, numbered from 0, that are the projections of n+1 evenly spaced points from A to B, ends included, and n lines, the i-th from vertex i to vertex i+1.  A segment given by two distinct points is kept as given; one given by a point, a direction and a length has that length and that direction.  Any number of cells that is accepted gives a segment.", "quantifier": "all pairs of points, directions, lengths, numbers of cells and projections", "why_tests_cant": "a test fixes one surface, one segment and one count, usually with a unit direction", "anchors": ["src/utils/ProjSegmentOnSurface.cpp: setSegment, projection", "src/utils/ProjPrimitivesOnSurfaces.cpp: setProjElementTargetNCells"]}
{"id": "C125", "title": "A segment to project is restored from XML", "statement": "The segment written in XML by a ProjSegmentOnSurface is the one another reads from it.", "quantifier": "all segments with whole, non negative coordinates", "why_tests_cant": "the text depends on the coordinates; the default segment read back is one of infinitely many", "anchors": ["src/utils/ProjSegmentOnSurface.cpp: flushSectionXML, absorbSectionXML"]}
{"id": "C126", "title": "The box of RBF nodes holds all their supports", "statement": "The box of a cloud of RBF nodes is the least axis aligned one around all the spheres, centred in the nodes, with the support radius enlarged by one hundredth; negative radii count as zero.  Its origin is its middle.  It does not depend on how nodes are spread over processes, nor on their order.", "quantifier": "all clouds, radii, partitions among any number of processes, some of which may be empty", "why_tests_cant": "a test fixes one cloud and one partition", "anchors": ["src/utils/RBFBox.cpp: setSupportRadius, getAABB, execute"]}
{"id": "C127", "title": "A projected patch keeps its structure", "statement": "To project a patch replaces each vertex by its projection, keeps identifiers and cells, and changes the patch given if and only if work on the target is asked.  If projected points project on themselves, to project again changes nothing.", "quantifier": "all patches with distinct vertex identifiers, all projections", "why_tests_cant": "a test fixes one patch and one surface", "anchors": ["src/utils/ProjPatchOnSurface.cpp: projection, setWorkingOnTarget"]}
{"id": "C128", "title": "Each cell goes to one process", "statement": "To divide a mesh that is on one process tells where each of its cells goes, one of the processes there are, and nothing about other cells. To serialize a distributed mesh sends all the cells of all processes to the first. A map given by the user is used as it is. Divisions that are not possible are refused, and what an object did before does not change what it does.", "quantifier": "all meshes, numbers of processes, processes, maps and histories of the object", "why_tests_cant": "It ranges over meshes, processes and sequences of executions; tests run with two processes and a new object.", "anchors": ["src/parallel/Partition.cpp: execute", "src/parallel/Partition.cpp: computePartition", "src/parallel/Partition.cpp: parmetisPartGeom", "src/parallel/Partition.cpp: serialPartition", "src/parallel/Partition.cpp: setPartition"]}
{"id": "C129", "title": "The graph divided is the one of the mesh", "statement": "The graph that is given to METIS joins two cells, in both directions, if and only if they are neighbours.", "quantifier": "all meshes with any identifiers", "why_tests_cant": "The graph is not visible, and its effect depends on the heuristics of METIS.", "anchors": ["src/parallel/Partition.cpp: parmetisPartGeom"]}
{"id": "C130", "title": "The boundary is divided as the volume is", "statement": "Each cell of the boundary surface goes to the process of the volume cell it bounds; serialized with the volume it goes to the first process.", "quantifier": "all volumes and boundaries, distributed or not, with cells in any place in memory, and all histories of the object", "why_tests_cant": "It depends on the order of faces, on distances and on identifiers.", "anchors": ["src/parallel/Partition.cpp: computeBoundaryPartition", "src/parallel/Partition.cpp: execute"]}
{"id": "C131", "title": "The method of partition is restored from XML", "statement": "The method of partition that is written in XML is the one read from it, and a number that is accepted stands for a method.", "quantifier": "all methods and all integers", "why_tests_cant": "A test tries the methods its author had in mind.", "anchors": ["src/parallel/Partition.cpp: setPartitionMethod", "src/parallel/Partition.cpp: absorbSectionXML", "src/parallel/Partition.cpp: flushSectionXML", "src/parallel/Partition.hpp: PartitionMethod"]}
{"id": "C132", "title": "A Wavefront OBJ file gives its mesh", "statement": "A file of parts gives the vertices, the texture points and the normals of all the parts in order, and for each facet a cell with its corners, its part, its material, its group and its smoothing.", "quantifier": "all files: any number of parts, vertices, textures, normals, facets, names and orders of lines", "why_tests_cant": "It ranges over files; tests read a few that come from the same tool.", "anchors": ["src/iogeneric/IOWavefrontOBJ.cpp: IOWavefrontOBJ::read", "src/iogeneric/IOWavefrontOBJ.cpp: searchObjectPosition", "src/iogeneric/IOWavefrontOBJ.cpp: readObjectData"]}
{"id": "C133", "title": "What is written to a Wavefront OBJ file is read back", "statement": "A mesh with its textures, normals, materials, groups and smoothing that is written to a file and read from it is the same.", "quantifier": "all meshes, parts, names and orders of vertices and cells", "why_tests_cant": "It composes writer and reader over all meshes; what is active at the end of a part depends on the ones before.", "anchors": ["src/iogeneric/IOWavefrontOBJ.cpp: IOWavefrontOBJ::write", "src/iogeneric/IOWavefrontOBJ.cpp: writeObjectData", "src/iogeneric/IOWavefrontOBJ.cpp: regroupCells", "src/iogeneric/IOWavefrontOBJ.cpp: readObjectData"]}
{"id": "C134", "title": "Names of materials and groups are numbered", "statement": "Each name in the field of a mesh has a number: zero for the empty name, and from one without gaps for the others in the order in which they first come. The number gives the name back, and names not in the field have none.", "quantifier": "all fields of names", "why_tests_cant": "It ranges over fields of any length with names repeated in any order.", "anchors": ["src/iogeneric/IOWavefrontOBJ.cpp: WavefrontOBJData::syncListsOnData"]}
{"id": "C135", "title": "Annotations and pins", "statement": "Annotating the cells of a mesh changes the groups of those cells only, according to the strategy chosen: the last annotation, the first one if there is no group, or all of them after the group. A pin gives the cells that own the property pinned.", "quantifier": "all meshes, groups, lists of annotations that overlap in any way, strategies and pins", "why_tests_cant": "It ranges over overlaps of lists of cells and over names that may be parts of others.", "anchors": ["src/iogeneric/IOWavefrontOBJ.cpp: ManipulateWFOBJData::computeAnnotations", "src/iogeneric/IOWavefrontOBJ.cpp: ManipulateWFOBJData::extractPinnedLists", "src/iogeneric/IOWavefrontOBJ.hpp: OverlapAnnotationMode"]}
{"id": "C136", "title": "Normals are of length one and computed where asked", "statement": "Checking the normals makes each that is not null of length one in its own direction, and doing it twice is doing it once. Computing the normals again gives the cells asked for a normal for each corner, and leaves the others.", "quantifier": "all normals, meshes of any facets and lists of cells", "why_tests_cant": "It ranges over vectors and over meshes of mixed facets.", "anchors": ["src/iogeneric/IOWavefrontOBJ.cpp: ManipulateWFOBJData::checkNormalsMagnitude", "src/iogeneric/IOWavefrontOBJ.cpp: ManipulateWFOBJData::computeNormals", "src/core/MimmoObject.cpp: addConnectedCell", "src/core/MimmoObject.cpp: checkCellConnCoherence"]}
{"id": "C137", "title": "Dumped data of a Wavefront OBJ mesh are restored", "statement": "The data dumped to a stream are the ones restored from it, and what follows them in the stream is left.", "quantifier": "all data, all objects restored into and all that follows in the stream", "why_tests_cant": "Tests restore into a new object.", "anchors": ["src/iogeneric/IOWavefrontOBJ.cpp: WavefrontOBJData::dump", "src/iogeneric/IOWavefrontOBJ.cpp: WavefrontOBJData::restore"]}
{"id": "C138", "title": "An OpenFOAM case read is the one of its directory", "statement": "Reading a case gives the mesh of the directory asked for, whatever was read before.", "quantifier": "all directories and all sequences of reads in a process", "why_tests_cant": "Tests read one case in each process.", "anchors": ["src/ioofoam/openFoamFiles_native.cpp: initializeCase", "src/ioofoam/IOOFOAM.cpp: IOOFOAM::read"]}
{"id": "C139", "title": "Cells of an OpenFOAM case keep their faces and vertices", "statement": "A cell read is the elementary shape of its cell in the case on the same vertices, with the orientation kept, or the polyhedron of its faces, each turned with its normal out of the cell.", "quantifier": "all cases with cells of any shapes", "why_tests_cant": "It ranges over the numberings of cells, faces and points, and faces are turned according to which of the two cells is the lower.", "anchors": ["src/ioofoam/openFoamFiles_native.cpp: mapEleVConnectivity", "src/ioofoam/IOOFOAM.cpp: IOOFOAM::read"]}
{"id": "C140", "title": "Faces and patches of an OpenFOAM case are found on the boundary", "statement": "Each face of a case is mapped to the interface of the mesh with its vertices, and each cell of the boundary has the number of the patch of its face.", "quantifier": "all cases, interfaces in any order and patches", "why_tests_cant": "It ranges over faces that share vertices and over orders of the vertices.", "anchors": ["src/ioofoam/IOOFOAM.cpp: IOOFOAM::read", "src/ioofoam/IOOFOAM.cpp: IOOFOAM_Kernel::setFacesMap"]}
{"id": "C141", "title": "Points are written back to their case", "statement": "Writing a mesh over its case gives each point the coordinates of the vertex it was read into and leaves all the rest of the case, on any number of processes; a mesh of another number of points is refused.", "quantifier": "all cases, coordinates, ghost cells and numbers of processes", "why_tests_cant": "It ranges over meshes and over what cells are on a process.", "anchors": ["src/ioofoam/openFoamFiles_native.cpp: writePointsOnCase", "src/ioofoam/IOOFOAM.cpp: IOOFOAM::writePointsOnly"]}
{"id": "C142", "title": "Fields of an OpenFOAM case are read on their cells", "statement": "The values of a field go to the cells in their order, and on the boundary to the cells of the faces of their patch, zero where there are none. The value in a vertex is the average of those of the cells around it by the angles, so between them.", "quantifier": "all fields, meshes, patches and maps of faces", "why_tests_cant": "It ranges over patches with and without values and over angles.", "anchors": ["src/ioofoam/openFoamFiles_native.cpp: readScalarField", "src/ioofoam/openFoamFiles_native.cpp: readVectorField", "src/ioofoam/openFoamFiles_native.cpp: interpolateFaceToPoint", "src/ioofoam/IOOFOAM.cpp: IOOFOAMScalarField::read", "src/ioofoam/IOOFOAM.cpp: IOOFOAMVectorField::read"]}
{"id": "C143", "title": "Options and meshes given to the OpenFOAM blocks are honoured", "statement": "Options written to XML are read from it, and each sets what it names only. Meshes are accepted in the documented pairs, and anything else is refused with an exception. A patch that is not there has the empty name.", "quantifier": "all options, pairs of meshes and places of patches", "why_tests_cant": "Tests set all the options and use good meshes.", "anchors": ["src/ioofoam/IOOFOAM.cpp: IOOFOAM::absorbSectionXML", "src/ioofoam/IOOFOAM.cpp: IOOFOAM::flushSectionXML", "src/ioofoam/IOOFOAM.cpp: IOOFOAM_Kernel::IOOFOAM_Kernel", "src/ioofoam/openFoamFiles_native.cpp: getPatchName"]}
{"id": "C144", "title": "A surface written to a Nastran file is read back", "statement": "A surface of triangles and quadrilaterals written by MimmoGeometry as a Nastran file is read back with the same identifiers, parts and connectivity, and with the coordinates to the digits that the fields of the format hold.", "quantifier": "all surfaces, coordinates, identifiers, part identifiers and formats of the fields", "why_tests_cant": "It ranges over all coordinates, which are cut to the width of the fields, and over sequences of faces of any kinds.", "anchors": ["src/iogeneric/MimmoGeometry.cpp: NastranInterface::write", "src/iogeneric/MimmoGeometry.cpp: NastranInterface::read", "src/iogeneric/MimmoGeometry.cpp: NastranInterface::writeCoord", "src/iogeneric/MimmoGeometry.cpp: NastranInterface::writeFace", "src/iogeneric/MimmoGeometry.cpp: NastranInterface::convertVertex", "src/iogeneric/MimmoGeometry.cpp: MimmoGeometry::write"]}
{"id": "C145", "title": "Cards of a Nastran file are read and others ignored", "statement": "A reading gets all the enabled cards of a file, whatever other lines are between them and wherever the file ends, and numbers with any of the notations for exponents, blank fields being zeros.", "quantifier": "all files, lines, numbers and notations", "why_tests_cant": "It ranges over the text of files.", "anchors": ["src/iogeneric/MimmoGeometry.cpp: NastranInterface::read", "src/iogeneric/MimmoGeometry.cpp: NastranInterface::convertVertex", "src/iogeneric/MimmoGeometry.cpp: NastranInterface::trim"]}
{"id": "C146", "title": "Settings of a geometry block survive XML", "statement": "A MimmoGeometry block written to XML and built again from it has the same mode, directories, names and types of files and options. A type of file that does not exist is taken as STL.", "quantifier": "all modes, directories, names, types and options", "why_tests_cant": "It ranges over all settings, and options not written go back to defaults in silence.", "anchors": ["src/iogeneric/MimmoGeometry.cpp: MimmoGeometry::absorbSectionXML", "src/iogeneric/MimmoGeometry.cpp: MimmoGeometry::flushSectionXML", "src/iogeneric/MimmoGeometry.cpp: MimmoGeometry::setFileType", "src/iogeneric/MimmoGeometry.cpp: MimmoGeometry::setIOMode"]}
{"id": "C147", "title": "The reference part identifier is added once", "statement": "Reading or writing adds the reference part identifier to the part of every cell, keeps the names of the parts with them, lists the new parts and no others, and does so once.", "quantifier": "all geometries, part identifiers, names and references", "why_tests_cant": "It ranges over geometries and over histories of executions.", "anchors": ["src/iogeneric/MimmoGeometry.cpp: MimmoGeometry::setReferencePID", "src/iogeneric/MimmoGeometry.cpp: MimmoGeometry::write", "src/iogeneric/MimmoGeometry.cpp: MimmoGeometry::read"]}
{"id": "C148", "title": "A mesh and its boundary are selected together", "statement": "A selection on a mesh and its boundary returns the selected cells of the mesh, the selected cells of the boundary that lie on them, and the faces where the part is cut from the rest of the mesh; it follows the dual flag, and a copy of the block is independent of it.", "quantifier": "all meshes with their boundaries, selections, calls and topologies", "why_tests_cant": "It ranges over meshes and selections: the part of the boundary and the part of the mesh are found independently and must agree on every one of them.", "anchors": ["src/geohandlers/FVGenericSelection.cpp: FVGenericSelection::execute", "src/geohandlers/FVGenericSelection.cpp: FVGenericSelection::cleanUpBoundaryPatch", "src/geohandlers/FVGenericSelection.cpp: FVGenericSelection::createInternalBoundaryPatch", "src/geohandlers/FVGenericSelection.cpp: FVGenericSelection::setDual", "src/geohandlers/FVGenericSelection.cpp: FVGenericSelection::FVGenericSelection", "src/geohandlers/FVSelectionByBox.cpp: FVSelectionByBox::setOrigin"]}
{"id": "C149", "title": "Settings of a selection by mapping", "statement": "A selection by mapping takes the topology it is given, or a surface, keeps the target, files and geometries that fit it, and a tolerance that is not negative, whatever the calls; its settings survive XML; the constructor from a target takes the topology of the target.", "quantifier": "all sequences of calls, constructors and sections", "why_tests_cant": "It ranges over histories of calls.", "anchors": ["src/geohandlers/SelectionByMapping.cpp: SelectionByMapping::SelectionByMapping", "src/geohandlers/SelectionByMapping.cpp: SelectionByMapping::addFile", "src/geohandlers/SelectionByMapping.cpp: SelectionByMapping::removeFile", "src/geohandlers/SelectionByMapping.cpp: SelectionByMapping::setGeometry", "src/geohandlers/SelectionByMapping.cpp: SelectionByMapping::addMappingGeometry", "src/geohandlers/SelectionByMapping.cpp: SelectionByMapping::absorbSectionXML", "src/geohandlers/SelectionByMapping.cpp: SelectionByMapping::flushSectionXML"]}
{"id": "C150", "title": "A selection by mapping extracts the cells near to other geometries", "statement": "The cells extracted are those of the target near to one of the files or of the geometries given, or with the dual the other ones; the files read are those at the paths given.", "quantifier": "all targets, files, geometries, tolerances and paths", "why_tests_cant": "It ranges over trees of boxes and over texts of paths.", "anchors": ["src/geohandlers/SelectionByMapping.cpp: SelectionByMapping::extractSelection", "src/geohandlers/SelectionByMapping.cpp: SelectionByMapping::getProximity", "src/geohandlers/SelectionByMapping.cpp: SelectionByMapping::extractInfo"]}
{"id": "C151", "title": "Where a selected part is cut from its geometry", "statement": "The constrained boundary of a selection is made of the border vertices of the part that are not on the border of the geometry.", "quantifier": "all meshes and parts of them", "why_tests_cant": "It ranges over meshes and parts.", "anchors": ["src/geohandlers/GenericSelection.cpp: GenericSelection::constrainedBoundary"]}
{"id": "C152", "title": "A selection by box carries a field", "statement": "After the execution of a selection by box with a scalar field, the field has the values on the elements of the part and refers to it; the block can be executed again.", "quantifier": "all fields, locations, geometries and parts", "why_tests_cant": "It ranges over fields and over sequences of executions.", "anchors": ["src/geohandlers/SelectionByBoxWithScalar.cpp: SelectionByBoxWithScalar::execute"]}
{"id": "C153", "title": "The mesh read from a VTU file is the one the file describes", "statement": "Reading a VTU file gives the points of the file with their ids, if these are all different, and the cells with their types, vertices, PIDs and ids, polyhedra face by face, in whatever of the conventions of VTK the faces are written; a type that is not supported is refused, and no cell refers to a vertex the mesh does not have.", "quantifier": "all grids, with or without ids, PIDs and faces of polyhedra", "why_tests_cant": "It ranges over grids: the running offsets of connectivity and faces must stay right after any mix of cells.", "anchors": ["src/core/VTUGridReader.cpp: VTUGridStreamer::decodeRawData", "src/core/VTUGridReader.cpp: VTUGridStreamer::absorbData", "src/iogeneric/MimmoGeometry.cpp: MimmoGeometry::read"]}
{"id": "C154", "title": "A mesh written in a VTU file is read back", "statement": "Writing a mesh in a VTU file and reading the file gives back the vertices and the cells written, with ids, types, connectivities and PIDs, in the same order; every vertex of the mesh is there.", "quantifier": "all meshes, sets of cells to be written and roundings of coordinates", "why_tests_cant": "It ranges over meshes.", "anchors": ["src/core/VTUGridWriterASCII.cpp: VTUGridWriterASCII::VTUGridWriterASCII", "src/core/VTUGridWriterASCII.cpp: VTUFlushStreamerASCII::flushData", "src/core/VTUGridReader.cpp: VTUGridStreamer::decodeRawData"]}
{"id": "C155", "title": "A volume mesh written in a CGNS file is read back", "statement": "Writing a volume mesh in a CGNS file and reading the file gives back its vertices, in the same order and numbered from zero, and all its cells, each with its type and on the same vertices; the zone keeps its name, and the parts of the cells are kept.", "quantifier": "all meshes of tetrahedra, pyramids, wedges and hexahedra with any ids, and any boundaries written with them", "why_tests_cant": "It ranges over meshes, mixes of types and orders of cells.", "anchors": ["src/iocgns/IOCGNS.cpp: IOCGNS::write", "src/iocgns/IOCGNS.cpp: IOCGNS::read", "src/iocgns/IOCGNS.cpp: IOCGNS::getZoneConn"]}
{"id": "C156", "title": "Boundary patches written in a CGNS file are read back", "statement": "The patches of a boundary written in a CGNS file are read back in order with their names, types and kinds; a patch of elements has the cells it had, a patch of points has the faces of the border of the volume that were in the patch, and no other.", "quantifier": "all boundaries of triangles and quadrilaterals, all lists of patches, all functions that give border faces", "why_tests_cant": "It ranges over meshes and patches: element numbers must stay right after any number of cells.", "anchors": ["src/iocgns/IOCGNS.cpp: IOCGNS::write", "src/iocgns/IOCGNS.cpp: IOCGNS::getBCElementsConn", "src/iocgns/IOCGNS.cpp: IOCGNS::belongToPool"]}
{"id": "C157", "title": "The elements of a CGNS file are those read", "statement": "Reading a CGNS file gives a cell for each volume element of the file, with its vertices, and gives to each patch of elements the elements whose numbers it lists, whatever the order and the types of sections, also mixed or of high order, and the number of zones.", "quantifier": "all files of one zone with sections of linear elements in any order; witnesses for mixed, high order, line sections and several zones", "why_tests_cant": "It ranges over files: the numbers of elements depend on all sections before.", "anchors": ["src/iocgns/IOCGNS.cpp: IOCGNS::read", "src/iocgns/IOCGNS.cpp: IOCGNS::unpackMixedConns"]}
{"id": "C158", "title": "A block of generic data gives the data of its file, or those it was given", "statement": "A generic input block that reads from file returns the data that are in its file when they are asked for, whatever happened before, and reports an error if the file is not there; a block that does not read returns the data it was given last. Asking again gives the same. With several processes an error is reported by all.", "quantifier": "all histories of calls on a block and of changes of files, all types, data and formats; all schedules of any number of processes", "why_tests_cant": "It ranges over histories of calls, contents of files and schedules.", "anchors": ["src/iogeneric/GenericInput.tpp: GenericInput::getResult", "src/iogeneric/GenericInput.tpp: GenericInput::setInput", "src/iogeneric/GenericInput.cpp: GenericInput::GenericInput"]}
{"id": "C159", "title": "Data given to a generic output block are read by a generic input block", "statement": "Data given to a block that writes are in the file it names when the call returns, no other file is changed, and a block with the same settings reads them; an error is reported if the file cannot be written.", "quantifier": "all data, types, settings, contents of disks, all pairs of a printer and a parser that undo each other", "why_tests_cant": "It ranges over settings and disks.", "anchors": ["src/iogeneric/GenericOutput.tpp: GenericOutput::setInput", "src/iogeneric/GenericOutput.tpp: GenericOutputMPVData::setInput", "src/iogeneric/GenericInput.tpp: GenericInputMPVData::_getResult"]}
{"id": "C160", "title": "Settings of generic input and output blocks are restored from XML", "statement": "The settings of a block of generic data written in an XML section and absorbed by a new block of its class are those of the block, in any order of the options.", "quantifier": "all settings of the four classes with trimmed texts", "why_tests_cant": "It ranges over all texts and settings.", "anchors": ["src/iogeneric/GenericInput.cpp: GenericInput::absorbSectionXML", "src/iogeneric/GenericInput.cpp: GenericInput::flushSectionXML", "src/iogeneric/GenericOutput.cpp: GenericOutput::absorbSectionXML", "src/iogeneric/GenericOutput.cpp: GenericOutputMPVData::absorbSectionXML"]}
{"id": "C161", "title": "A field written in a binary file is read back", "statement": "A field written in a binary file is read from it with its name, its location, its identifiers and its values in their order.", "quantifier": "all fields whose numbers are held by their types, all fixed width encodings of values", "why_tests_cant": "It ranges over sizes, names, negative and large identifiers.", "anchors": ["src/iogeneric/GenericOutput.tpp: GenericOutputMPVData::setInput", "src/iogeneric/GenericInput.tpp: GenericInputMPVData::_getResult"]}
{"id": "C162", "title": "Finite volume gradients at cells are exact on linear fields", "statement": "The gradient stencil of a cell gives zero for constant fields and the slope for linear fields, in all directions in which the cell has neighbours and zero in directions in which it has none, for any position of the neighbours and any size of the mesh.", "quantifier": "all meshes, cells, lists of neighbours and linear fields", "why_tests_cant": "It ranges over all positions of neighbours: the weights are a quotient of polynomials of them.", "anchors": ["src/propagators/StencilFunctions.cpp: FVolStencil::computeWeightsWLS", "src/propagators/StencilFunctions.cpp: FVolStencil::computeFVCellGradientStencil"]}
{"id": "C163", "title": "Finite volume gradients at interfaces are exact on linear fields and satisfy boundary conditions", "statement": "The gradient stencil of an interface gives the slope of linear fields and does not depend on which of its cells is the owner; on the border its tangential part is that of the cell, its normal part is zero, that of the Neumann condition, or such that the slope of a linear field with the value of the Dirichlet condition is found. It is given for every interface.", "quantifier": "all interfaces, stencils of cells, fields and conditions", "why_tests_cant": "It ranges over all geometries and fields.", "anchors": ["src/propagators/StencilFunctions.cpp: FVolStencil::updateFVFaceGradientStencil", "src/propagators/StencilFunctions.cpp: FVolStencil::computeBorderFaceGradient", "src/propagators/StencilFunctions.cpp: FVolStencil::correctionNeumannBCFaceGradient", "src/propagators/StencilFunctions.cpp: FVolStencil::correctionDirichletBCFaceGradient"]}
{"id": "C164", "title": "The finite volume laplacian is conservative and zero on linear fields", "statement": "The laplacian of a cell times its volume is the sum of what flows out of its interfaces, with the mean diffusivity of the two cells; over a mesh without ghosts the sum is what flows through the border. It is zero for linear fields in closed cells. Cells without all their interfaces given have none.", "quantifier": "all meshes, fields, diffusivities, lists of interfaces in any order", "why_tests_cant": "It ranges over all meshes and orders of interfaces.", "anchors": ["src/propagators/StencilFunctions.cpp: FVolStencil::computeFVLaplacianStencil"]}
{"id": "C165", "title": "The distance of a vertex is the shortest way through the sides already reached", "statement": "When the points of a surface are spread by the LevelSet engine, the new distance of a vertex is never above the length of any way to it through a side of one of its triangles whose two ends have a distance already (with the distance linear along the side), nor above the way along a side with one such end; and it is always the old one or the length of such a way. This holds whatever the size of the triangles.", "quantifier": "all triangulations, positions, distances and sets of vertices already reached, and all points of the sides", "why_tests_cant": "The shortest way is a minimum over the points of a side, for all shapes of triangle and all distances of its ends.", "anchors": ["src/utils/CreateSeedsOnSurface.cpp: CreateSeedsOnSurface::updateEikonal"]}
{"id": "C166", "title": "The distances reach exactly the vertices joined to a seed, each once", "statement": "The marching of the distances ends after at most as many turns as there are vertices, whatever the order of equal distances; at the end exactly the vertices joined to a seed by sides have been settled, the others have no value; the value of a vertex settled does not change again and the seeds are at zero. No distance is below the straight distance to the nearest seed, and the first vertex settled is a nearest neighbour of the seed.", "quantifier": "all triangulations, seeds, positions, and all runs (any choice among equal distances)", "why_tests_cant": "It is an invariant of a loop on all meshes, with all the orders of the queue.", "anchors": ["src/utils/CreateSeedsOnSurface.cpp: CreateSeedsOnSurface::solveEikonal", "src/utils/CreateSeedsOnSurface.cpp: CreateSeedsOnSurface::isDeadFront", "src/utils/CreateSeedsOnSurface.cpp: CreateSeedsOnSurface::findVertexVertexOneRing"]}
{"id": "C167", "title": "Settings of the manipulation of Wavefront data are restored from XML", "statement": "A block ManipulateWFOBJData made from what another has written in XML has the same strategies, flag and lists of names and ids to pin; in a section written by hand the names to pin are the words of the text and the ids its numbers, whatever the blanks between them, and options not given change nothing.", "quantifier": "all settings, all names and ids, all texts of options", "why_tests_cant": "It ranges over all lists of names and all layouts of blanks.", "anchors": ["src/iogeneric/IOWavefrontOBJ.cpp: ManipulateWFOBJData::absorbSectionXML", "src/iogeneric/IOWavefrontOBJ.cpp: ManipulateWFOBJData::flushSectionXML", "src/iogeneric/IOWavefrontOBJ.cpp: ManipulateWFOBJData::setPinMaterials", "src/iogeneric/IOWavefrontOBJ.cpp: ManipulateWFOBJData::setPinSmoothIds"]}
{"id": "C168", "title": "Settings of the reading and writing of Wavefront files are restored from XML", "statement": "A block IOWavefrontOBJ made from what another has written in XML has the same mode, directory, file name, flags and tolerance; options not given leave what there is, and any section of its class makes a block.", "quantifier": "all settings and all texts of options", "why_tests_cant": "It ranges over all values of the settings, in particular of the tolerance.", "anchors": ["src/iogeneric/IOWavefrontOBJ.cpp: IOWavefrontOBJ::IOWavefrontOBJ", "src/iogeneric/IOWavefrontOBJ.cpp: IOWavefrontOBJ::absorbSectionXML", "src/iogeneric/IOWavefrontOBJ.cpp: IOWavefrontOBJ::flushSectionXML", "src/iogeneric/IOWavefrontOBJ.cpp: IOWavefrontOBJ::setGeometryTolerance"]}
{"id": "C169", "title": "The closest cell is found whatever the tree", "statement": "The search of the cell closest to a point in a tree of boxes gives a cell and its distance such that no cell of the tree is nearer, whatever the shape of the tree and the order of the cells, when some cell is within the largest distance; when every cell is beyond it, it gives no cell and the largest number. With interior cells only, what is given is the closest interior cell, and it is given whenever there is an interior cell within the distance.", "quantifier": "all trees of boxes around their cells, all points, all largest distances, all sets of interior cells", "why_tests_cant": "It ranges over all trees and all orders in which branches are cut by the estimate of the distance.", "anchors": ["src/core/SkdTreeUtils.cpp: findPointClosestCell"]}
{"id": "C170", "title": "The closest cell over all the processes", "statement": "With the surface shared out among processes, the search of the closest cell gives for each point, known to all the processes or to one only, an interior cell of some process, this process and the distance, and no cell of any process is nearer; all the processes get the same answer for a shared point. Cells beyond the radius given are not considered, and only the given points are searched.", "quantifier": "all numbers of processes, all partitions with ghost cells, all distributions of points, all reductions that keep a least one", "why_tests_cant": "It ranges over all partitions and numbers of processes, and over the ghosts that cut the search of each process.", "anchors": ["src/core/SkdTreeUtils.cpp: findSharedPointClosestGlobalCell", "src/core/SkdTreeUtils.cpp: findPointClosestGlobalCell", "src/core/SkdTreeUtils.cpp: findPointClosestCell"]}
{"id": "C171", "title": "The surfaces of a propagation are joined without losses", "statement": "The surface made from the damping, narrow band or slip surfaces given to a propagator has the cells of all of them, with their pids, processes and the places of their vertices, and no other; no identifier is there twice, it does not depend on the order in which the surfaces were given, and without surfaces there is none.", "quantifier": "all lists of surfaces, all numberings of their vertices and cells", "why_tests_cant": "It ranges over all numberings of the surfaces and all orders of an unordered set of pointers.", "anchors": ["src/propagators/PropagateField.tpp: PropagateField::initializeUniqueSurface", "src/core/MimmoObject.cpp: MimmoObject::addVertex", "src/core/MimmoObject.cpp: MimmoObject::addCell"]}
{"id": "C172", "title": "Normals of the interfaces go from the owner to the neighbour", "statement": "On a surface with its interfaces built, the normal of the interface between two triangles is a unit vector orthogonal to the common edge and to the normal of the edge, directed from the owner to the neighbour, whatever the angle between them; on the border it goes out of the owner. On volumes normal and area are those of the face; for other meshes, or without interfaces, they are zero.", "quantifier": "all pairs of triangles with a common edge, all angles and sizes", "why_tests_cant": "It ranges over all positions of the vertices.", "anchors": ["src/core/MimmoObject.cpp: MimmoObject::evalInterfaceNormal", "src/core/MimmoObject.cpp: MimmoObject::evalInterfaceArea"]}
{"id": "C173", "title": "Boundary conditions of CGNS meshes in streams and on all the processes", "statement": "The boundary conditions read from a CGNS file (type of condition, kind of list and name of each boundary part, parts and names of the zones) are restored from a stream exactly as they were dumped, whatever the object had before, and after a parallel reading every process has the ones of process 0.", "quantifier": "all maps of conditions, zones and names, all numbers of processes", "why_tests_cant": "It ranges over all contents of the maps and all processes.", "anchors": ["src/iocgns/IOCGNS.cpp: BCCGNS::dump", "src/iocgns/IOCGNS.cpp: BCCGNS::restore", "src/iocgns/IOCGNS.cpp: IOCGNS::communicateAllProcsStoredBC"]}
{"id": "C174", "title": "Every block has an identity of its own", "statement": "Over any history of construction, copy, assignment, swap and destruction of blocks, getId gives different numbers for different blocks and never a number of a destroyed block again; assignment and swap exchange the settings but leave identities, links and built ports where they are, a copy has the settings but no links; two blocks never write their geometry in the same file.", "quantifier": "all histories of operations on blocks, all settings and names", "why_tests_cant": "It ranges over all histories of operations and all names.", "anchors": ["src/core/BaseManipulation.cpp: BaseManipulation::BaseManipulation", "src/core/BaseManipulation.cpp: BaseManipulation::operator=", "src/core/BaseManipulation.cpp: BaseManipulation::swap", "src/core/BaseManipulation.cpp: BaseManipulation::getId", "src/core/BaseManipulation.cpp: BaseManipulation::setId", "src/core/BaseManipulation.cpp: BaseManipulation::write"]}
{"id": "C175", "title": "All blocks write in the log chosen before the first block", "statement": "The name and the directory of the log are the last ones set with setLogger and setLoggerDirectory before the first block is made, for every block; settings made later have no effect, even when no block is alive any more.", "quantifier": "all histories of operations on blocks and of settings of the logger", "why_tests_cant": "It ranges over all histories: the counter deciding is static and is never reset.", "anchors": ["src/core/MimmoNamespace.cpp: setLogger", "src/core/MimmoNamespace.cpp: setLoggerDirectory", "src/core/BaseManipulation.cpp: BaseManipulation::initializeLogger"]}
{"id": "C176", "title": "Communicators of the blocks", "statement": "No two blocks alive use the same communicator, whatever has been copied, assigned or exchanged, and the communicators held are those of the blocks alive.", "quantifier": "all histories of operations on blocks", "why_tests_cant": "It ranges over all histories; running out of communicators appears only in long runs.", "anchors": ["src/core/BaseManipulation.cpp: BaseManipulation::BaseManipulation", "src/core/BaseManipulation.cpp: BaseManipulation::~BaseManipulation", "src/core/BaseManipulation.cpp: BaseManipulation::operator=", "src/core/BaseManipulation.cpp: BaseManipulation::swap"]}
{"id": "C177", "title": "Copy and comparison of ports", "statement": "The copy of a port has all that the port has; two ports compare equal exactly when they have the same links, the same type of data and, for input ports, the same obligation and family; comparing changes neither.", "quantifier": "all ports", "why_tests_cant": "It ranges over all links, types, obligations and families.", "anchors": ["src/core/InOut.cpp: DataType::operator==", "src/core/InOut.cpp: PortOut::operator==", "src/core/InOut.cpp: PortIn::operator==", "src/core/InOut.tpp: PortOutT::operator==", "src/core/InOut.tpp: PortInT::operator=="]}
{"id": "C178", "title": "Magnitude of a vector field", "statement": "For every vector field the block Module gives, on the same mesh and for the same elements, the Euclidean length of every vector, whatever it had computed before; it is zero exactly where the vector is, the field given stays as it was and executing again changes nothing.", "quantifier": "all fields, all former contents of the block", "why_tests_cant": "It ranges over all fields and all former results.", "anchors": ["src/core/Module.cpp: Module::setField", "src/core/Module.cpp: Module::execute", "src/core/Module.cpp: Module::plotOptionalResults"]}
{"id": "C179", "title": "Primitive shapes written in XML and read again", "statement": "Primitives and selections by box, sphere and cylinder written in an XML section and read again have the same shape, origin, span, axes, limits and duality, up to the text of the numbers, whatever the block that reads had; options not there change nothing, and numbers missing in a text keep their defaults.", "quantifier": "all settings, all former settings of the reading block, any rounding by the text", "why_tests_cant": "It ranges over all settings and all sections.", "anchors": ["src/core/Primitive.cpp: Primitive::absorbSectionXML", "src/core/Primitive.cpp: Primitive::flushSectionXML", "src/geohandlers/SelectionByBox.cpp: SelectionByBox::absorbSectionXML", "src/geohandlers/SelectionBySphere.cpp: SelectionBySphere::absorbSectionXML", "src/geohandlers/SelectionByCylinder.cpp: SelectionByCylinder::absorbSectionXML"]}
