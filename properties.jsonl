{"id": "C01", "title": "booleanSort partitions any range", "statement": "booleanSort(begin,end,pred) terminates on every range and every predicate; afterwards the range is a permutation of its old contents, every element before the returned position satisfies pred and no element from the returned position on does.", "quantifier": "all finite ranges (including empty), all element values, all boolean predicates", "why_tests_cant": "the two-pointer swap loop has one path per (length, predicate pattern); tests sample a handful of patterns", "anchors": ["include/Simu/utility/Algo.hpp: booleanSort"]}
{"id": "C02", "title": "Allocator hands out aligned, in-bounds, pairwise disjoint storage", "statement": "For every sequence of allocate/deallocate calls on a FreeListAllocator (and its rebinds) in which each deallocation returns a live allocation with its original count, every pointer returned is aligned for its type, lies with its full extent inside memory obtained from operator new, and never overlaps another live allocation.", "quantifier": "all histories of allocate and deallocate of any sizes, any alignments, any base addresses returned by operator new", "why_tests_cant": "overlap bugs in a coalescing free list show only after particular interleavings of sizes, alignments and frees", "anchors": ["include/Simu/utility/Memory.hpp: FreeListAllocator::allocate/deallocate, Block::allocate/deallocate"]}
{"id": "C03", "title": "Allocator returns all memory once everything is freed", "statement": "After any history in which every allocation has been deallocated, the allocator holds no block at all: freed ranges are always re-coalesced, whatever the order of frees.", "quantifier": "all histories and all orders of deallocation", "why_tests_cant": "coalescing must work for each of the orders in which neighbours can be freed; the number of orders is factorial", "anchors": ["include/Simu/utility/Memory.hpp: Block::deallocate, Block::isEmpty, FreeListAllocator::deallocate"]}
{"id": "C04", "title": "Allocation succeeds whatever the state, or the size computation wraps", "statement": "allocate(n) of a type whose byte size n*sizeof(T) (plus alignment slack) is below 2^64 always returns storage for n objects in every reachable state; when n*sizeof(T) exceeds 2^64 the request silently wraps and the returned storage is smaller than n objects.", "quantifier": "all reachable allocator states, all n, all object sizes and alignments", "why_tests_cant": "depends on every shape of free list and every base address alignment; the wrap needs a 2^64-scale request", "anchors": ["include/Simu/utility/Memory.hpp: FreeListAllocator::allocate, Block::Block"]}
{"id": "C05", "title": "Boxes overlap exactly when they share a point", "statement": "In exact arithmetic, two valid boxes a and b satisfy a.overlaps(b) iff some point lies in both (touching counts); an invalid box overlaps nothing and overlaps is symmetric.", "quantifier": "all pairs of boxes with real coordinates", "why_tests_cant": "the centre-distance formula must agree with geometry on a continuum of inputs", "anchors": ["src/Simu/physics/BoundingBox.cpp: overlaps", "include/Simu/math/Interval.hpp: overlaps"]}
{"id": "C06", "title": "Single-precision overlap test is exact on a bounded grid and wrong outside it", "statement": "With IEEE-754 binary32 coordinates, overlaps agrees with geometric overlap for all boxes whose coordinates are integer multiples of one power of two 2^e with multiplier magnitude at most 2^22; without that restriction there are finite boxes sharing a point for which overlaps is false, and finite disjoint boxes for which it is true.", "quantifier": "all binary32 boxes on the grid; existence outside it", "why_tests_cant": "2^128 inputs; failures are confined to rounding boundaries", "anchors": ["include/Simu/math/Interval.hpp: overlaps", "src/Simu/physics/BoundingBox.cpp: overlaps"]}
{"id": "C07", "title": "combined is the least box containing both", "statement": "combined of two boxes contains both, is contained in every box containing both, ignores invalid operands, and is commutative, associative and idempotent with respect to BoundingBox equality; this also holds for binary32 coordinates without NaN.", "quantifier": "all boxes, exact and binary32 (NaN-free)", "why_tests_cant": "laws over all triples of boxes, including invalid ones", "anchors": ["src/Simu/physics/BoundingBox.cpp: combined", "include/Simu/physics/BoundingBox.hpp: operator=="]}
{"id": "C08", "title": "contains agrees with geometric containment", "statement": "For NaN-free coordinates a.contains(b) iff both boxes are valid and every point of b is a point of a; in particular contains is false as soon as one of the boxes is invalid.", "quantifier": "all pairs of boxes", "why_tests_cant": "containment is implemented through combined and equality, not by coordinates; needs all inputs", "anchors": ["src/Simu/physics/BoundingBox.cpp: contains"]}
{"id": "C09", "title": "Box built from vertices is the tightest box", "statement": "BoundingBox built from a non-empty vertex range contains every vertex and each of its four sides is attained by some vertex, so it is contained in any box containing the vertices; from an empty range its coordinates are indeterminate.", "quantifier": "all vertex sequences of any length", "why_tests_cant": "holds by induction over the sequence length", "anchors": ["include/Simu/physics/BoundingBox.hpp: BoundingBox(VertexIterator,VertexIterator)"]}
{"id": "C10", "title": "R-tree operations never corrupt the pointer structure", "statement": "For every history of insert, erase, update, clear and updateAndCollide on an RTree in which each inserted or updated box keeps the area of its union with the tree finite, no null or freed node is dereferenced, every child's parent link matches, every internal node below the root has exactly two children, and no node is shared.", "quantifier": "all operation histories, any element type, any box values and any arithmetic (including rounding), any tie-breaking of the priority queue", "why_tests_cant": "rotations and extractions rewire parent/child pointers; a wrong rewiring appears only in particular tree shapes", "anchors": ["include/Simu/physics/RTree.hpp: insert, extract, refit, checkRotations, swapNodes, addLeafTo, updateAndCollide", "include/Simu/physics/RTree.inl.hpp: Node"]}
{"id": "C11", "title": "R-tree behaves as a bag of (element, bounds)", "statement": "After any history, the elements in the tree are exactly those inserted and not erased, each with the bounds most recently given by insert, update or updateAndCollide; size() is their number and isEmpty() holds iff there are none.", "quantifier": "all operation histories", "why_tests_cant": "refinement over unbounded histories", "anchors": ["include/Simu/physics/RTree.hpp: insert, erase, update, updateAndCollide, size, isEmpty"]}
{"id": "C12", "title": "R-tree iteration visits every element exactly once", "statement": "In every reachable tree, starting at begin() and incrementing reaches end() after visiting each element exactly once; begin()==end() iff the tree is empty.", "quantifier": "all reachable trees", "why_tests_cant": "the iterator climbs through parents; its correctness depends on every tree shape including one-child roots", "anchors": ["include/Simu/physics/RTree.inl.hpp: Iterator::operator++, goLeft", "include/Simu/physics/RTree.hpp: begin, end"]}
{"id": "C13", "title": "R-tree node bounds are the union of what is below", "statement": "In every reachable tree the bounds stored at every internal node equal (as boxes) the combination of the bounds of all leaves below it; in particular bounds() is the union of all elements' bounds, or invalid if empty, despite refit stopping early.", "quantifier": "all histories of insert, erase, update, updateAndCollide; NaN-free arithmetic", "why_tests_cant": "refit stops at the first unchanged ancestor and rotations change bounds in place; stale bounds would show only for particular histories", "anchors": ["include/Simu/physics/RTree.hpp: refit, checkRotation, addLeafTo, extract, updateAndCollide, bounds"]}
{"id": "C14", "title": "R-tree queries report exactly the overlapping elements", "statement": "forEachIn(box,f) calls f exactly once for each element whose bounds overlap box and for no other; forEachAt(p,f) likewise for the elements whose bounds contain p.", "quantifier": "all reachable trees, all query boxes and points; exact arithmetic or binary32 on the exactness grid", "why_tests_cant": "pruning soundness over all trees and queries", "anchors": ["include/Simu/physics/RTree.hpp: forEachIn, forEachAt"]}
{"id": "C15", "title": "R-tree overlap enumerations are complete and duplicate-free", "statement": "forEachOverlapping(it,f) calls f exactly once for each other element overlapping it's bounds; forEachOverlapping(list,f) calls f exactly once for each pair of a tree element and a list entry whose bounds overlap.", "quantifier": "all reachable trees, all elements, all lists of elements", "why_tests_cant": "the list version reorders and truncates one shared array during recursion", "anchors": ["include/Simu/physics/RTree.hpp: forEachOverlapping, OverlapList"]}
{"id": "C16", "title": "updateAndCollide reports each overlapping pair once and rebuilds the tree", "statement": "updateAndCollide(update,onCollision) sets every element's bounds to update(element) exactly once, keeps exactly the same elements, and calls onCollision exactly once for each unordered pair of distinct elements whose new bounds overlap and for no other pair; the recursion always terminates.", "quantifier": "all reachable trees with any number of elements, all update functions (exact arithmetic or binary32 on the grid); termination and contents for any arithmetic", "why_tests_cant": "the recursion splits by float centres with a fallback clamp; pair completeness quantifies over all pair/split combinations", "anchors": ["include/Simu/physics/RTree.hpp: updateAndCollide"]}
{"id": "C17", "title": "R-tree iterators stay valid across unrelated operations", "statement": "An iterator to an element obtained from insert keeps designating the same element with its bounds, through any later insert, update, erase of other elements or updateAndCollide, until that element is erased; end() also stays valid.", "quantifier": "all histories, all elements", "why_tests_cant": "node recycling and rotation could move or free a leaf in rare shapes", "anchors": ["include/Simu/physics/RTree.hpp: erase, update, updateAndCollide, RecycleBin"]}
{"id": "C18", "title": "erase returns the next element, but erasing while iterating can skip elements", "statement": "erase(it) removes exactly it and returns a valid iterator designating the element that followed it (or end()); however, because rebalancing reorders elements, the loop 'it = condition ? erase(it) : ++it' does not visit every element in general: there are trees and erase choices for which a remaining element is never visited.", "quantifier": "all reachable trees and elements; existence for the skip", "why_tests_cant": "needs a tree shape where removal triggers a rotation across the cursor", "anchors": ["include/Simu/physics/RTree.hpp: erase, extract, refit, checkRotations"]}
{"id": "C19", "title": "R-tree inserts of over-large boxes are undefined", "statement": "Inserting a box (even into an empty tree) whose union with the tree's bounds has a non-finite binary32 area dereferences a null node; this is the only way insert can go wrong in a reachable tree.", "quantifier": "all reachable trees and all binary32 boxes", "why_tests_cant": "requires extreme coordinates; the guard is implicit in comparisons with INFINITY", "anchors": ["include/Simu/physics/RTree.hpp: insert(Node*), area, addLeafTo"]}
{"id": "C20", "title": "R-tree insertion picks a cheapest position", "statement": "In exact arithmetic the best-first search of insert stops early without loss: the position it selects minimises (area of the union at the node plus area increase of its ancestors) over all nodes of the tree.", "quantifier": "all reachable trees, all boxes, any priority-queue tie-breaking", "why_tests_cant": "branch-and-bound pruning correctness over all trees", "anchors": ["include/Simu/physics/RTree.hpp: insert(Node*)"]}
{"id": "C21", "title": "R-tree leaks nothing and frees nothing twice", "statement": "After any history every allocated node is reachable from the root exactly once and every element object is owned by exactly one node; destroying or clearing the tree frees each exactly once. A tree that was moved-constructed from leaves the source holding an indeterminate root.", "quantifier": "all histories", "why_tests_cant": "leaks and double frees depend on the path through extract and the recycle bin", "anchors": ["include/Simu/physics/RTree.hpp: deleteNode, extract, RecycleBin, RTree(RTree&&), ~RTree, clear"]}
{"id": "C22", "title": "Matrix algebra laws", "statement": "For all compatible dimensions matrix product is associative and distributes over addition, identity is neutral, transpose reverses products and is an involution, and matrix-vector product with a product matrix is composition (exact arithmetic). Subtraction, negation, scaling and division by a scalar are the linear operations: they commute with the product and undo each other.", "quantifier": "all dimensions and entries", "why_tests_cant": "universally quantified over dimensions and reals", "anchors": ["include/Simu/math/Matrix.hpp", "include/Simu/math/Matrix.inl.hpp: operator*, transpose, identity"]}
{"id": "C23", "title": "2x2 solver solves exactly the regular systems", "statement": "Solver of a 2x2 matrix reports valid iff its determinant is non-zero; then solve(b) returns the unique x with A x = b, and otherwise solve throws (exact arithmetic); invert(A) is then a two-sided inverse.", "quantifier": "all 2x2 matrices and right-hand sides", "why_tests_cant": "universal over reals", "anchors": ["include/Simu/math/Matrix.inl.hpp: Solver<T,2,2>, invert"]}
{"id": "C24", "title": "QR solver solves exactly the regular systems", "statement": "For any n, the n x n Solver reports valid iff the columns are linearly independent (exact arithmetic); then solve(b) is the unique solution of A x = b.", "quantifier": "all n, all matrices and right-hand sides", "why_tests_cant": "universal over dimension and reals", "anchors": ["include/Simu/math/Matrix.inl.hpp: Solver"]}
{"id": "C25", "title": "Two-contact complementarity solver", "statement": "For every symmetric positive definite 2x2 matrix A and every b, LcpSolver::solve(b) returns the unique x >= 0 with A x - b >= 0 and x.(A x - b) = 0 (exact arithmetic); for matrices that are not positive definite it can return zero although zero is not a solution.", "quantifier": "all positive definite A, all b", "why_tests_cant": "case analysis must cover the whole plane of right-hand sides", "anchors": ["include/Simu/math/Matrix.inl.hpp: LcpSolver"]}
{"id": "C26", "title": "Projected Gauss-Seidel", "statement": "Whenever solveInequalities returns, its result is a fixed point of the projection within the stopping tolerance and lies in the projection's range; there are matrices with non-zero diagonal on which it never returns.", "quantifier": "all matrices, right-hand sides and projections", "why_tests_cant": "non-termination cannot be observed by a test; partial correctness is universal", "anchors": ["include/Simu/math/Matrix.inl.hpp: solveInequalities"]}
{"id": "C27", "title": "Closest point on a segment", "statement": "LineBarycentric of points A,B and query Q: u+v=1 and the closest point is the point of segment AB nearest to Q (exact arithmetic), for distinct A and B.", "quantifier": "all A,B,Q", "why_tests_cant": "continuum of inputs", "anchors": ["src/Simu/math/BarycentricCoordinates.cpp: LineBarycentric"]}
{"id": "C28", "title": "Closest point on a triangle", "statement": "TriangleBarycentric of points A,B,C and query Q: for non-degenerate triangles the closest point is the point of the triangle nearest to Q, is Q itself iff Q is inside, whatever the vertex orientation (exact arithmetic); a small clockwise triangle is misclassified.", "quantifier": "all triangles and query points", "why_tests_cant": "seven Voronoi regions times orientation; the tolerance makes tiny triangles special", "anchors": ["src/Simu/math/BarycentricCoordinates.cpp: TriangleBarycentric"]}
{"id": "C29", "title": "Support point is maximal", "statement": "furthestVertexInDirection returns a vertex of the shape maximising the dot product with the direction, the first such one, for every shape and non-zero direction; a zero direction throws.", "quantifier": "all vertex lists and directions", "why_tests_cant": "universal over lists", "anchors": ["include/Simu/math/Geometry.inl.hpp: furthestVertexInDirection"]}
{"id": "C30", "title": "Polygon area, centroid and inertia", "statement": "The area, centroid and second moment computed for a polygon do not depend on which vertex comes first nor (up to orientation, which is normalised) on traversal direction; area and inertia are translation invariant and the centroid translates with the polygon; for a box of dimensions w,h they are wh, the centre and wh(w^2+h^2)/12 (exact arithmetic).", "quantifier": "all vertex sequences, all translations, all box dimensions", "why_tests_cant": "universal over vertex lists", "anchors": ["include/Simu/math/Geometry.hpp: GeometricProperties", "include/Simu/math/Polygon.inl.hpp: Polygon, box"]}
{"id": "C31", "title": "A Polygon is always positively oriented and has at least three vertices", "statement": "Every Polygon that can be constructed has at least three vertices and non-negative signed area, contains exactly the given vertices, and construction from fewer vertices throws.", "quantifier": "all vertex lists", "why_tests_cant": "universal over lists", "anchors": ["include/Simu/math/Polygon.inl.hpp: Polygon"]}
{"id": "C32", "title": "Edges view covers the polygon boundary cyclically", "statement": "The edges of a shape with n vertices are the n pairs of consecutive vertices, the last one closing the loop; next and previous are mutually inverse cyclic moves. isInside and isOutside hold exactly for the points strictly to the left and to the right of the edge, and neither holds exactly on its line (exact arithmetic).", "quantifier": "all shapes", "why_tests_cant": "universal over lengths", "anchors": ["include/Simu/math/Edges.hpp"]}
{"id": "C33", "title": "Gjk decides whether two shapes intersect", "statement": "For shapes of which at least one has three vertices not on a line, Gjk's constructor terminates, areColliding() is true exactly when the convex hulls have a common point, and when it is false there is a direction strictly separating the vertices (exact arithmetic). The same for flat shapes unless all vertices of both lie on one line across the search direction; there, and for shapes whose coordinate products underflow in binary32, disjoint shapes are reported as colliding.", "quantifier": "all pairs of non-empty vertex lists, all initial directions; no bound on the iterations", "why_tests_cant": "iterative algorithm with a data-dependent number of steps; every wrong turn of the simplex needs its own pair of shapes", "anchors": ["include/Simu/math/Gjk.inl.hpp: Gjk::Gjk, Simplex::nextDirection, Simplex::pushPoint, Simplex::containsOrigin, Simplex::hasPoint"]}
{"id": "C34", "title": "Rigid transforms compose and invert correctly", "statement": "Every product of rotations, translations and transforms acts on points as the composition of the factors and converts to the product matrix; inverse() undoes it on both sides; transforms preserve distances; transformAround(theta,offset,c) maps c to c+offset (exact arithmetic).", "quantifier": "all angles, offsets, points", "why_tests_cant": "universal over reals; eight product overloads", "anchors": ["include/Simu/physics/Transform.hpp"]}
{"id": "C35", "title": "Camera transform pair is always invertible", "statement": "After any sequence of zoom, pan and resize calls (with any arguments) the zoom and view dimensions are positive, transform() and invTransform() are mutual inverses on points, and transform() maps the visible rectangle onto [-1,1]x[-1,1] (exact arithmetic).", "quantifier": "all histories of camera calls with any arguments", "why_tests_cant": "invariant over histories", "anchors": ["src/Simu/app/Camera.cpp", "include/Simu/app/Camera.hpp"]}
{"id": "C36", "title": "Scroll zoom direction", "statement": "Scrolling by one notch up zooms in by 5/4 and one notch down zooms out by 4/5, but for other scroll amounts the zoom is multiplied by the magnitude itself: a fractional upward scroll below 0.8 zooms out and a downward scroll of magnitude above 1.25 zooms in; a zero scroll leaves the zoom unchanged.", "quantifier": "all scroll amounts and zooms", "why_tests_cant": "depends on a continuum of scroll amounts and input devices", "anchors": ["src/Simu/app/Scene.cpp: onMouseScroll", "src/Simu/app/Camera.cpp: setZoom"]}
{"id": "C37", "title": "Combining mass properties", "statement": "Combining mass properties adds masses, gives the mass-weighted centroid and keeps the total inertia about any point; the combination is commutative and associative with the zero element neutral, so a body's mass, centroid and inertia do not depend on the order colliders were added, and removing a collider leaves the properties of the remaining ones (exact arithmetic, positive masses).", "quantifier": "all finite collections of colliders in any order", "why_tests_cant": "all orders and all lists", "anchors": ["include/Simu/physics/Collider.hpp: MassProperties::operator+, Colliders::add/remove"]}
{"id": "C38", "title": "Impulses change momentum by exactly the impulse", "statement": "applyImpulse(J, r) changes linear momentum by J and angular momentum about the centroid by cross(r,J), and equal and opposite impulses at a common point on two bodies preserve total linear and angular momentum (exact arithmetic).", "quantifier": "all bodies, impulses and points", "why_tests_cant": "universal over reals", "anchors": ["include/Simu/physics/Body.hpp: applyImpulse"]}
{"id": "C39", "title": "Uniform gravity accelerates every body equally", "statement": "Over a step of length dt a Gravity field changes the velocity of every awake non-structural body inside its domain by exactly g*dt and leaves its angular velocity unchanged, whatever its number of colliders; bodies asleep or structural are untouched (exact arithmetic).", "quantifier": "all bodies with any number of colliders, all dt", "why_tests_cant": "per-collider application must cancel torque for every collider arrangement", "anchors": ["include/Simu/physics/ForceField.hpp: Gravity, LinearField", "src/Simu/physics/World.cpp: applyForces"]}
{"id": "C40", "title": "A step without time moves nothing", "statement": "World::step(dt) with dt <= 0 (or NaN) changes no body's position, orientation, velocity or colliders, applies no force and solves no island; it only removes dead objects.", "quantifier": "all worlds reachable by public operations, all user constraints, all dt not greater than 0, all number types", "why_tests_cant": "Every combination of objects, pending removals and values of dt would have to be tried; a test only sees one world.", "anchors": ["src/Simu/physics/World.cpp: World::step"]}
{"id": "C41", "title": "Islands are the connected components", "statement": "In every step the islands solved are the components of the graph of active constraints and contacts, where a body at rest that is immovable for all its constraints connects nothing: they share only such bodies, cover every body, and contain with each movable body every active constraint and contact attached to it. This needs activity to be decided by the constraint's own state: with a limited distance constraint, a body already solved in one island can be solved and moved a second time in the same step.", "quantifier": "all histories, all constraint graphs, all island orders", "why_tests_cant": "The graph, the order of the bodies and the activity of the constraints range over unbounded combinations.", "anchors": ["include/Simu/physics/Island.hpp: Island::init, addBody, addConstraint, Islands::solveIslands", "src/Simu/physics/Body.cpp: interactsAsStructural"]}
{"id": "C42", "title": "Which sleeping bodies a step wakes", "statement": "Solving the islands wakes all bodies of islands solved at or after an island which contains an awake body; a body can only be woken this way if that island, or an earlier one, contains an awake body or a body joined by a constraint (active or not) to an awake one. If all bodies sleep, none is woken. So a sleeping body without any constraint, contact or force wakes because an unrelated body moves.", "quantifier": "all histories, all sequences of islands in a step", "why_tests_cant": "The flag leaks along the order in which islands are processed, which depends on the whole history of the world.", "anchors": ["include/Simu/physics/Island.hpp: Island::clear, addBody, Islands::solveIslands"]}
{"id": "C43", "title": "Fast spinning bodies must not be put to sleep", "statement": "A body is immobile only if its linear and angular speeds are both below the thresholds; in the code as written any negative angular velocity, however fast, passes the angular test, so a body spinning clockwise at rest can be put to sleep.", "quantifier": "all velocities", "why_tests_cant": "sign-dependent threshold", "anchors": ["include/Simu/physics/Body.hpp: isImmobile, updateTimeImmobile"]}
{"id": "C44", "title": "World object lifecycle", "statement": "After any history of creating and killing bodies, constraints and force fields and stepping: an object killed before a step is gone after the next step, together with the constraints and contacts of killed bodies, and nothing else is removed; every object is released at most once; bodies, constraints and force fields removed by a step (not contacts, and not objects removed by World::clear) receive their destruction callback exactly once before their storage is released; no constraint, contact, collider entry or body list refers to a removed object, and the bodies' own lists match the world's lists.", "quantifier": "all histories of world operations", "why_tests_cant": "Histories are unbounded and dangling references show only when used later.", "anchors": ["src/Simu/physics/World.cpp: World::cleanup, World::clear", "include/Simu/physics/World.hpp: makeBody, makeConstraint, makeForceField", "include/Simu/physics/PhysicsObject.hpp: kill, isDead"]}
{"id": "C45", "title": "Exactly one contact per touching pair", "statement": "In every reachable world there is at most one contact per unordered pair of colliders, never between two colliders of the same body. After a step of positive duration the contacts that are not marked dead are exactly those of the pairs reported as overlapping which belong to different bodies not joined by a constraint that disables contacts.", "quantifier": "all histories, all pairs reported by the tree in any order, all orders of the hash map", "why_tests_cant": "The map is keyed by addresses which may be reused, and the order of a pair may differ between steps.", "anchors": ["src/Simu/physics/World.cpp: World::updateBodies, makeContactConstraint", "include/Simu/physics/World.hpp: inContacts"]}
{"id": "C46", "title": "Replacing the contact factory leaves dangling contacts", "statement": "World::setContactFactory destroys the existing contacts without detaching them from the bodies they touch: if a contact exists at that moment then no later step of positive duration completes normally (unless both bodies die first), nor does World::clear; with no contact present the call is safe.", "quantifier": "all reachable worlds with at least one contact, all later steps", "why_tests_cant": "The failure is a use of freed memory in a later step, which a test may not observe.", "anchors": ["src/Simu/physics/World.cpp: World::setContactFactory"]}
{"id": "C47", "title": "Equality constraints are satisfied exactly after a velocity solve", "statement": "After one velocity solve of an equality constraint with invertible effective mass and no damping or restitution, the relative velocity J v (plus bias) is exactly zero (exact arithmetic), and bodies with dominance 0 keep their velocity.", "quantifier": "all jacobians, masses, velocities of any constraint dimension", "why_tests_cant": "universal over reals", "anchors": ["include/Simu/physics/ConstraintSolver.hpp", "include/Simu/physics/Bodies.inl.hpp: Proxies::applyImpulse"]}
{"id": "C48", "title": "Constraint impulses conserve momentum", "statement": "Hinge, weld, rotation, distance and contact impulses leave the total linear momentum of the two bodies unchanged, and the total angular momentum unchanged as well whenever the two attachment points coincide or the impulse acts along the line joining them (exact arithmetic, dominance 1).", "quantifier": "all configurations and impulses", "why_tests_cant": "universal over reals", "anchors": ["include/Simu/physics/ConstraintFunction.hpp", "include/Simu/physics/DistanceConstraint.hpp", "include/Simu/physics/Constraint.hpp"]}
{"id": "C49", "title": "Contact impulses only push and respect the friction cone", "statement": "After every velocity solve of a contact the accumulated normal impulses are non-negative and each accumulated friction impulse is bounded in magnitude by friction coefficient times the normal impulse it was clamped against, for every number of iterations.", "quantifier": "all contact states, all iteration counts, any arithmetic with ordered comparisons", "why_tests_cant": "invariant over iterations", "anchors": ["include/Simu/physics/Constraint.hpp: ContactConstraint::solveVelocities"]}
{"id": "C50", "title": "Limits solver enforces the active limit only", "statement": "For a constraint with lower and/or upper limits, the solver acts only when a limit is reached, the accumulated impulse has the sign of the active limit, and switching limits discards the stored impulse.", "quantifier": "all limit values and constraint values, all histories of evaluations", "why_tests_cant": "decision logic over all orders of limit activations", "anchors": ["include/Simu/physics/ConstraintSolver.hpp: LimitsSolver"]}
{"id": "C51", "title": "Motors never exceed their maximum force or throttle", "statement": "For every sequence of throttle and direction settings, throttle stays in [0,1], direction is zero or normalised, and the impulse a motor applies in a step of dt is within maxForce*throttle*dt along the direction and never against it.", "quantifier": "all settings histories, all lambdas", "why_tests_cant": "invariant over histories", "anchors": ["include/Simu/physics/Motors.hpp"]}
{"id": "C52", "title": "Distance constraint construction", "statement": "A distance constraint can be built from a maximum, an exact distance or the current distance; building one with only a minimum distance always throws, because the absent maximum is compared with zero.", "quantifier": "all optional bounds", "why_tests_cant": "decision over optional values; no test constructs a minimum-only constraint", "anchors": ["include/Simu/physics/DistanceConstraint.hpp"]}
{"id": "C53", "title": "Combined material properties are symmetric", "statement": "The combined friction or bounciness of two colliders does not depend on their order, uses the mode of highest priority of the two, and lies between the two values for average/minimum/maximum modes; for values in [0,1] it stays in [0,1].", "quantifier": "all modes and values", "why_tests_cant": "universal over values", "anchors": ["include/Simu/physics/CombinableProperty.hpp"]}
{"id": "C54", "title": "Profiler statistics", "statement": "After any sequence of recorded measures a time entry's last, maximum and average are those of the sequence (exact arithmetic); moving a scoped timer loses its measure.", "quantifier": "all sequences of measures", "why_tests_cant": "running average by recurrence", "anchors": ["include/Simu/physics/Profiler.hpp"]}
{"id": "C55", "title": "Renderer batches only valid triangles", "statement": "For every sequence of polygons drawn, each index sent to the GPU designates a vertex of the same batch, each polygon with n vertices yields exactly the n triangles (centre, v_i, v_i+1) cyclically, provided n stays below 64511; for n beyond the 16-bit range the indices wrap.", "quantifier": "all sequences of draw and flush calls", "why_tests_cant": "index arithmetic modulo 2^16 over all histories", "anchors": ["src/Simu/app/Renderer.cpp: OpenGlRenderer::drawPolygon, flush"]}
{"id": "C56", "title": "Grabber tool and destroyed constraints", "statement": "Between a mouse press and release, if a step removes the grabbed body or its mouse constraint, or the world is cleared, the grabber still holds a pointer to the destroyed constraint and every later move, release or press on a body is undefined behaviour; as long as the constraint exists, move and release work, and every mouse constraint other than the held one is marked dead and gone after the next step.", "quantifier": "all histories of mouse events interleaved with world operations", "why_tests_cant": "Needs a particular interleaving of user input, removal and stepping.", "anchors": ["src/Simu/app/Tool.cpp: Grabber"]}
{"id": "C57", "title": "Adding a collider to a rotated body displaces its geometry", "statement": "addCollider moves every point fixed to the body by d - R d, where d is the change of the local centroid and R the body's rotation: nothing moves when the body is not rotated, but on a rotated body the existing colliders jump whenever the centroid changes.", "quantifier": "all bodies, colliders and local points (exact arithmetic)", "why_tests_cant": "tests add colliders to unrotated bodies only", "anchors": ["src/Simu/physics/Body.cpp: Body::addCollider", "include/Simu/physics/Body.hpp: Position::toWorldSpace, setLocalCentroid"]}
{"id": "C58", "title": "Adding a collider to a spinning body changes its velocity field", "statement": "addCollider leaves velocity and angular velocity unchanged, although the code intends to correct the velocity for the new centroid: the velocity of every world point on a body spinning at w changes by w*perp(old centroid - new centroid).", "quantifier": "all bodies, colliders and points (exact arithmetic)", "why_tests_cant": "needs a spinning body whose centroid moves", "anchors": ["src/Simu/physics/Body.cpp: Body::addCollider (dvAtCentroid)"]}
{"id": "C59", "title": "A rejected collider stays in the body", "statement": "When addCollider throws because the polygon is degenerate or the density is not positive, the collider remains in the body's list without being counted in its mass, and every later removal of another collider throws.", "quantifier": "all bodies reached by a history of operations, all rejected colliders", "why_tests_cant": "no test adds a rejected collider", "anchors": ["include/Simu/physics/Collider.hpp: Colliders::add, Colliders::remove, MassProperties"]}
{"id": "C60", "title": "drawPoint ends exactly for point precisions below 256", "statement": "With a point precision of at most 255, Renderer::drawPoint builds exactly one vertex per offset, in order; setPointPrecision accepts any larger value, and from 256 on the 8-bit loop counter wraps and drawPoint never returns.", "quantifier": "all precisions, all points", "why_tests_cant": "non-termination cannot be observed by a test, and only precisions above 255 show it", "anchors": ["src/Simu/app/Renderer.cpp: Renderer::drawPoint", "include/Simu/app/Renderer.hpp: setPointPrecision"]}
{"id": "C61", "title": "drawLine draws a rectangle of the line width", "statement": "In exact arithmetic drawLine(A,B) with A != B passes drawPolygon the midpoint and four corners that form a rectangle with axis AB: each corner is at distance lineWidth/2 from its end point, perpendicular to AB; with A == B it throws.", "quantifier": "all points, all non-negative widths", "why_tests_cant": "identity over all real segments", "anchors": ["src/Simu/app/Renderer.cpp: Renderer::drawLine"]}
{"id": "C62", "title": "Contact velocity solve stops penetration", "statement": "After a velocity solve of a contact with one or two points, every point either separates at its target speed or faster, or is pushed and separates exactly at it: normal impulse >= 0, opening speed plus bounce >= 0, and their product is 0. The bounce is the restitution times the approach speed when it is faster than 1, otherwise 0. With two points this needs the 2x2 effective mass to be invertible.", "quantifier": "all contacts, bodies' masses, velocities and accumulated impulses (exact arithmetic)", "why_tests_cant": "complementarity over all reals and impulse histories", "anchors": ["include/Simu/physics/Constraint.hpp: ContactConstraint::initSolve, solveVelocities"]}
{"id": "C63", "title": "Solvers never write a non-finite velocity or position", "statement": "Whenever a warmstart, velocity solve or position solve of a constraint or contact returns, bodies whose velocities (positions) were finite still have finite velocities (positions), even in binary32 with overflow and NaN: the solver throws instead.", "quantifier": "all constraint functions, states, impulses, any arithmetic including binary32", "why_tests_cant": "needs all overflow and NaN cases", "anchors": ["include/Simu/physics/Bodies.hpp: Proxies::applyImpulse, applyPositionCorrection", "include/Simu/physics/ConstraintSolver.hpp"]}
{"id": "C64", "title": "World::step and World::clear are free of undefined behaviour", "statement": "In every world reached by public operations that returned, World::step never uses a destroyed object, never reads an index outside the island's arrays and always ends (it may throw), and World::clear returns; this holds for the library's own constraints and contacts.", "quantifier": "all histories, all dt, all user constraints and force fields that are themselves defined, all iteration orders of the contact map", "why_tests_cant": "Absence of undefined behaviour over all histories cannot be observed by running some of them.", "anchors": ["src/Simu/physics/World.cpp: World::step, World::clear", "include/Simu/physics/Island.hpp"]}
{"id": "C65", "title": "Destroying a body that still has colliders", "statement": "~Body removes colliders from the list it iterates over, so incrementing the iterator is undefined by the standard: a step that removes a body with a collider, or clearing a world with one, is undefined under the strict reading; when the dying bodies have no collider the strict reading makes no difference.", "quantifier": "all reachable worlds", "why_tests_cant": "The erased list node usually stays readable, so tests pass.", "anchors": ["include/Simu/physics/Body.hpp: ~Body", "src/Simu/physics/Body.cpp: removeCollider"]}
{"id": "C66", "title": "No constraint between immovable ends", "statement": "In every reachable world each constraint and contact has at least one end with a non-zero inverse mass, and a constraint of a single body gives it a non-zero inverse mass.", "quantifier": "all histories", "why_tests_cant": "Constraints and contacts are created in many ways, also inside a step.", "anchors": ["include/Simu/physics/ConstraintInterfaces.hpp: Constraint::Constraint", "include/Simu/physics/Bodies.inl.hpp"]}
{"id": "C67", "title": "penetration() is a minimum translation", "statement": "When the interiors of the two hulls overlap, penetration() terminates, translating second by it leaves the shapes touching along a separating line, and every shorter translation leaves them overlapping (exact arithmetic). When the hulls have no common point it returns the zero vector. For shapes that only touch, areColliding() can be true and penetration() throw.", "quantifier": "all overlapping pairs of vertex lists, all initial directions, all translations", "why_tests_cant": "minimality over all translations; the polytope can expand any number of times", "anchors": ["include/Simu/math/Gjk.inl.hpp: Gjk::penetration, Polytope::Polytope, Polytope::addVertex"]}
{"id": "C68", "title": "separation() reaches the other shape", "statement": "If separation() returns, translating first by it makes the hulls have a common point (exact arithmetic). It is not always the shortest such translation, as documented, and it throws for some disjoint triangles.", "quantifier": "all pairs of vertex lists one of which is not flat, all directions, all iteration counts", "why_tests_cant": "the value comes from a data-dependent iteration and from barycentric cases that tests only sample", "anchors": ["include/Simu/math/Gjk.inl.hpp: Gjk::separation", "src/Simu/math/BarycentricCoordinates.cpp: TriangleBarycentric"]}
{"id": "C69", "title": "clipInside() returns a nearest point of the edge", "statement": "Edge::clipInside(other) always returns a point of the edge itself; no other point of the edge is nearer to the line through other; for a parallel other edge it is from() (exact arithmetic).", "quantifier": "all edges, degenerate ones included, and all other edges", "why_tests_cant": "all real positions of two edges, including parallel, degenerate and crossing ones", "anchors": ["include/Simu/math/Edges.hpp: Edges::Edge::clipInside"]}
{"id": "C70", "title": "Contacts lie on both bodies, along the shortest way out", "statement": "For two convex colliders whose interiors overlap, ContactManifold::update() terminates without throwing. With p a shortest translation of the second collider which ends the overlap: if |p| is less than the tolerated penetration there is no contact. Otherwise there are at most two, different from each other; the frame's normal is -p/|p| (out of the second body, unit length) and the tangent is perpendicular to it; each contact is a point on the outline of the first collider and one on the outline of the second, and the depth between them along the normal is between 0 and |p|. All this whatever the manifold held before (exact arithmetic).", "quantifier": "all convex colliders of any number of vertices, all positions and rotations of the two bodies, all earlier states of the manifold, all tolerances", "why_tests_cant": "GJK and EPA take any number of iterations; a test checks single placements, not that the normal is the one of the shortest way out for all polygons", "anchors": ["include/Simu/physics/ContactManifold.hpp: ContactManifold::update, computeContactEdge, computeContacts, frameManifold", "include/Simu/math/Gjk.inl.hpp: Gjk::penetration"]}
{"id": "C71", "title": "Overlapping boxes get a contact at full depth", "statement": "For two overlapping rectangles, in any position and orientation, whose penetration is not below the tolerance, update() finds at least one contact, and one of them has the full depth |p|, so the solver pushes the boxes apart by what is needed (exact arithmetic). This fails for convex polygons in general: two triangles overlapping by 2 with a tolerance of 1/2 get no contact at all.", "quantifier": "all pairs of rectangles, all positions, rotations and earlier states", "why_tests_cant": "all relative orientations of two boxes; the failing triangles need a configuration tests do not contain", "anchors": ["include/Simu/physics/ContactManifold.hpp: ContactManifold::update, computeContacts", "include/Simu/math/Edges.hpp: Edges::Edge::clipInside"]}
{"id": "C72", "title": "Separate colliders get no contact", "statement": "For convex colliders without a common point and a non-zero tolerated penetration, update() returns and the manifold has no contact. With a tolerated penetration of 0 it throws as soon as the bounding boxes overlap, because the zero vector is used as a direction; and for colliders which only touch it can throw.", "quantifier": "all convex colliders without common point, all positions and earlier states, all non-zero tolerances", "why_tests_cant": "all separated placements, in particular those with overlapping bounding boxes", "anchors": ["include/Simu/physics/ContactManifold.hpp: ContactManifold::update", "include/Simu/physics/Material.hpp: Material::penetration", "include/Simu/math/Geometry.inl.hpp: furthestVertexInDirection"]}
{"id": "C73", "title": "Calls that change a body's velocity wake it", "statement": "No sequence of addCollider, removeCollider, applyImpulse, setVelocity and setAngularVelocity puts an awake body to sleep, and one which changes the velocity or angular velocity leaves the body awake. The time spent immobile is not reset, though: after an impulse too weak to reach the sleep thresholds the next step puts the body to sleep again, although it still has the velocity of the impulse.", "quantifier": "all bodies, all sequences of calls; all impulses, thresholds and delays", "why_tests_cant": "all histories of calls, and the timer only matters after a long sleep", "anchors": ["include/Simu/physics/Body.hpp: setVelocity, setAngularVelocity, applyImpulse, wake, updateTimeImmobile, canSleep", "src/Simu/physics/World.cpp: World::updateBodies"]}
{"id": "C74", "title": "Play speed, pause and the time simulated by a scene", "statement": "Whatever keys are pressed and functions called, the play speed stays positive, each '=' doubles it and each '-' halves it; a paused scene gives the world no time; while the speed is left alone the simulated time is at most the play speed times the elapsed time (each frame counted for at most 1/60 s, each S for 1/60 s), exactly that while it runs, and exactly the single steps while it is paused. In binary32, 150 '-' then 150 '=' leave the scene twice as fast, and after 128 '=' a paused scene steps with NaN.", "quantifier": "all histories of frames, keys, pauses, speed and camera calls; all frame times", "why_tests_cant": "unbounded key histories, float over- and underflow", "anchors": ["include/Simu/app/Scene.hpp: step, setPlaySpeed, pause, resume", "src/Simu/app/Scene.cpp: Scene::onKeypress"]}
{"id": "C75", "title": "The box spawner keeps the orientation and colour chosen", "statement": "An angle of 0 to 180 degrees chosen on the slider is still shown after any number of frames in exact arithmetic; in binary32 at most two degrees are lost however many frames are drawn (23 becomes 22, 163 becomes 161); each negative angle is turned by 180 degrees one frame later. The 8-bit colour never drifts.", "quantifier": "all slider positions, all numbers of frames, all colour values", "why_tests_cant": "accumulated rounding over any number of frames; two arithmetics", "anchors": ["src/Simu/app/Tool.cpp: BoxSpawner::doGui"]}
{"id": "C76", "title": "Arrow keys pan at a constant speed on screen", "statement": "In each frame the picture moves by 500 pixels per second of frame time (at most 1/60 s) in the direction of the arrow keys held, diagonals included, whatever the zoom, pixel size, window size, play speed and pause; opposite keys cancel.", "quantifier": "all histories, all windows, zooms and pixel sizes, all 16 key combinations, all frame times and scene points", "why_tests_cant": "all camera states and key combinations", "anchors": ["src/Simu/app/Scene.cpp: Scene::moveCamera", "src/Simu/app/Camera.cpp: Camera::transform"]}
{"id": "C77", "title": "The cursor picks the scene point drawn under it", "statement": "For every camera reachable through the public functions and every window size, the scene point computed for a cursor position is the one drawn at that pixel, and each scene point is picked at the pixel where it is drawn.", "quantifier": "all camera histories, window sizes, cursor positions and scene points", "why_tests_cant": "all camera states", "anchors": ["src/Simu/app/Application.cpp: windowToScene", "src/Simu/app/Camera.cpp: Camera::invTransform"]}
{"id": "C78", "title": "The pause button says what a click does", "statement": "As long as nothing but the button pauses or resumes the scene, its label is right and each click toggles the pause. After the P key it is not: it reads Pause in a paused scene and the click leaves the scene paused.", "quantifier": "all histories of clicks, frames, keys and calls", "why_tests_cant": "all interleavings of clicks and keys", "anchors": ["src/Simu/app/Application.cpp: Application::doGui", "src/Simu/app/Scene.cpp: Scene::onKeypress"]}
{"id": "C79", "title": "A body that nothing touches moves by its velocity", "statement": "In a World::step with dt > 0, a body which is an end of no constraint and of no contact keeps its linear and angular velocity and its position advances by exactly dt times them, whatever the other bodies and their constraints do. Without force fields that velocity is the one it had before the step. This also holds for a body that is asleep: sleeping does not stop it, it drifts on with the velocity it fell asleep with.", "quantifier": "all worlds reached by calls of the API, all bodies, all time steps, all orders in which islands and contacts are processed, float or real arithmetic, any constraint classes", "why_tests_cant": "all worlds and all interactions between other bodies", "anchors": ["src/Simu/physics/World.cpp: World::step, World::solveIslands", "include/Simu/physics/Island.hpp: Island::integrateBodies, Island::endSolve", "include/Simu/physics/Body.hpp: Position::advance"]}
{"id": "C80", "title": "A step conserves momentum and moves the centre of mass with it", "statement": "Take a group of bodies joined only to each other, by hinges, welds, rotation joints, distance joints and contacts with default dominances and the masses the bodies had when they were joined, in a world without force fields. Over a World::step (restitution, friction, warm starting, position correction, sleeping and other islands included) the total linear momentum of the group does not change, and its centre of mass moves by exactly dt times its velocity: solving the constraints neither creates momentum nor displaces the group. When every body of such a world has dominance one and a mass, this repeats over any number of steps in which no body is removed, new contacts included: the centre of mass moves on a straight line at constant velocity.", "quantifier": "all worlds reached by calls of the API, all groups, all iteration counts and settings, all time steps dt > 0, all numbers of steps, all orders of islands and contacts; exact arithmetic", "why_tests_cant": "all worlds, shapes and histories; a test compares a few simulations within a tolerance", "anchors": ["src/Simu/physics/World.cpp: World::step, World::solveIslands", "include/Simu/physics/Island.hpp: Island", "include/Simu/physics/Bodies.hpp: Proxies::applyImpulse, Proxies::applyPositionCorrection", "include/Simu/physics/ConstraintSolver.hpp", "include/Simu/physics/ConstraintFunction.hpp", "include/Simu/physics/Constraint.hpp: ContactConstraint"]}
{"id": "C81", "title": "Position correction of a contact pushes gently and stops", "statement": "Solving the positions of a contact leaves both bodies where they are when no contact point is deeper than three times the penetration tolerance. Otherwise the bodies are only ever pushed apart along the contact normal, at the contact points, by an amount that widens the gap (to first order in the displacement) by a fifth of the depth beyond the tolerance, at most by 0.2 units: with one contact point by exactly that, with two by at least that at each point and by exactly that at each point that pushes. One solve with one contact point never corrects past the tolerance.", "quantifier": "all contacts with one or two points, all depths, masses, positions and tolerances; exact arithmetic", "why_tests_cant": "all geometric configurations and masses; a wrong sign or clamp is only seen in rare deep overlaps", "anchors": ["include/Simu/physics/Constraint.hpp: ContactConstraint::solvePositions, computeKs, computeJacobians", "include/Simu/physics/Bodies.inl.hpp: Proxies::applyPositionCorrection"]}
{"id": "C82", "title": "Position solve of joints closes the error", "statement": "After one position solve of a hinge or weld the two anchor points coincide up to a distance which is quadratic in the angles the bodies had to turn (their squares times the distance of the anchors from the centroids); the angle between the bodies of a weld or rotation joint is then exactly the reference angle. Velocities and all other bodies are unchanged. The point grabbed by a mouse constraint goes to the mouse position in the same sense, and its velocity solve moves it there at the rate set by restitution and damping. The solve always succeeds when the masses are not all infinite. An inequality solver with a singular system changes nothing.", "quantifier": "all anchors, reference angles, masses, positions and rotations, any solver state; exact arithmetic", "why_tests_cant": "all configurations; the error left is not zero, so a test has to guess a tolerance", "anchors": ["include/Simu/physics/ConstraintSolver.hpp: EqualitySolver::solvePosition, InequalitySolver::solvePosition", "include/Simu/physics/ConstraintFunction.hpp: HingeConstraintFunction, RotationConstraintFunction, ConstraintFunctions", "include/Simu/app/MouseConstraint.hpp: MouseConstraintFunction", "include/Simu/physics/Body.hpp: Position::advance"]}
{"id": "C83", "title": "A linear field pushes each body with its force", "statement": "During applyForces a LinearField that reaches all colliders of an awake, non-structural body changes its momentum by exactly force * dt, whatever the number, shapes and masses of its colliders, and gives it no spin. When only some of the colliders are in the field's region, the change is force * dt times the share of the body's mass which is inside. Sleeping and structural bodies are not changed.", "quantifier": "all worlds, bodies, numbers of colliders, orders in which colliders are visited, forces and time steps; exact arithmetic", "why_tests_cant": "all collections of colliders and visiting orders", "anchors": ["include/Simu/physics/ForceField.hpp: LinearField::apply", "src/Simu/physics/World.cpp: World::applyForces"]}
{"id": "C84", "title": "R-tree height", "statement": "RTree::height() of a tree obtained by any history of calls is the largest number of child links from the root to a node; in a tree with elements this depth is attained at an element. The number of elements is at least the height and at most 2 to the power of the height. It is not logarithmic in general: sixteen equal boxes give a tree of height 15.", "quantifier": "all element types, box types and histories of tree operations", "why_tests_cant": "all histories; the height bounds the cost of every query", "anchors": ["include/Simu/physics/RTree.hpp: RTree::height", "include/Simu/physics/RTree.inl.hpp"]}
{"id": "C85", "title": "Position solve of a distance constraint", "statement": "One position solve of a distance constraint takes the squared distance of the anchors to the nearest allowed value (itself if it is within the limits, otherwise the square of the limit it exceeds), up to terms of second order in the angles turned and in the change of the vector between the anchors. If the distance is allowed nothing moves. Velocities and other bodies are unchanged, and the solve always succeeds when the anchors do not coincide and the masses are not all infinite.", "quantifier": "all limits accepted by the constructor, anchors, masses, positions and rotations; exact arithmetic", "why_tests_cant": "all configurations; the error left is not zero, so a test has to guess a tolerance", "anchors": ["include/Simu/physics/DistanceConstraint.hpp: DistanceConstraint, DistanceConstraintFunction", "include/Simu/physics/ConstraintSolver.hpp: LimitsSolver::solvePosition"]}
{"id": "C86", "title": "A one-sided constraint only pushes", "statement": "After a velocity solve of an InequalitySolver with one row whose lambda is clamped to be non-negative: the accumulated lambda is not negative, the constraint velocity with bias and restitution is not negative, and one of the two is zero. The velocities change by exactly the impulse of the change of lambda.", "quantifier": "all constraint functions of dimension 1, accumulated lambdas, states, masses and time steps; exact arithmetic", "why_tests_cant": "all states; complementarity is a relation between the lambda kept inside and the velocities of both bodies", "anchors": ["include/Simu/physics/ConstraintSolver.hpp: InequalitySolver::initSolve, InequalitySolver::solveVelocity"]}
{"id": "C87", "title": "Scaled boxes", "statement": "BoundingBox::scaled with a positive ratio gives the box whose points are the points of the original moved to ratio times their distance from the centre. The centre stays, a ratio of at least 1 contains the original, a ratio of at most 1 is contained in it. In binary32 this fails: the ratio 1 need not give the box back.", "quantifier": "all boxes and positive ratios; exact arithmetic, with a binary32 counterexample", "why_tests_cant": "all boxes and ratios", "anchors": ["include/Simu/physics/BoundingBox.hpp: BoundingBox::scaled", "src/Simu/physics/BoundingBox.cpp"]}
{"id": "C88", "title": "Exactly the scene shown by an application is attached to it", "statement": "After any sequence of registrations, selections, frames, input events, resizes and uses of scenes: a scene has an application and a renderer if and only if it is the one shown, the shown scene is initialised, every scene's current tool is one of its own, and once a scene was registered one is shown. No event then dereferences a null renderer or throws, unless the user steps or resets a hidden scene (undefined behaviour), uses a destroyed scene or names an unknown tool. Selecting a hidden scene shows it with its world cleared and initialised anew exactly once, and keeps its settings, tool, play speed, pause and the other scenes; its camera takes the shape of the window.", "quantifier": "all event histories, all window sizes, all numbers of scenes and tools, for any number type", "why_tests_cant": "Unbounded histories of GUI and user events; a dangling application or renderer pointer shows only for particular orders of events", "anchors": ["include/Simu/app/Application.hpp: registerScene", "src/Simu/app/Application.cpp: Application::changeScene", "src/Simu/app/Scene.cpp: Scene::init", "include/Simu/app/Scene.hpp: reset, useTool"]}
{"id": "C89", "title": "Hidden scenes are frozen and input reaches the shown scene only", "statement": "A scene which is not shown is left entirely as it is by any sequence of events that neither selects, replaces nor uses it. Each frame steps the world of the shown scene once, with the time of its play state, and no other. A key or scroll which the GUI or the tool has used changes nothing; any other key reaches exactly the shown scene, scrolling and resizing change only its camera, and Escape pressed is the only key that closes the window. Choosing a tool by name takes the first tool of that name and leaves the rest of the scene as it is; an unknown name throws.", "quantifier": "all event histories, keys, actions and tools", "why_tests_cant": "Unbounded histories of events over any number of scenes", "anchors": ["src/Simu/app/Application.cpp: Application::keypressCallback, Application::run", "include/Simu/app/Scene.hpp: step, useTool", "src/Simu/app/Scene.cpp: Scene::onKeypress"]}
{"id": "C90", "title": "The Engine Settings window sets the iterations and warmstarting of the shown world and always disables sleeping", "statement": "While the Engine Settings window is open, each frame gives the shown world the chosen iteration counts (modulo 2^32) and warmstarting, and leaves its play state alone. The window holds its own settings for all scenes, in which sleeping is never enabled. So showing the window without touching it is not harmless: a scene which enabled sleeping has it disabled and all its bodies woken.", "quantifier": "all event histories, all slider values", "why_tests_cant": "The window's settings outlive scenes and depend on the whole history", "anchors": ["src/Simu/app/Application.cpp: Application::doGui", "include/Simu/physics/World.hpp: updateSettings, Settings"]}
{"id": "C91", "title": "The ground does not move and a moving platform is not slowed", "statement": "A body of dominance zero (a structural body) to which every constraint and contact gives infinite mass and inertia, as those made with the bodies' own dominances do, keeps this through every step: the contacts which the steps create hold it as well. If it is at rest then its position and velocity are exactly those it had, after any number of steps, whatever force fields, collisions, joints, sleeping, kills or time steps occur. If it moves then a step advances it by its own velocity times dt once, and leaves its velocity as it was. Dominance zero alone does not give this: a constraint made with other dominances does move the body. Stated in exact arithmetic.", "quantifier": "all reachable worlds, all numbers of steps, all time steps, collision pairs and constraint states of the library", "why_tests_cant": "A body at rest of dominance zero may be shared by any number of islands and touched by any number of solver calls per step, over any number of steps", "anchors": ["include/Simu/physics/Body.hpp: BodyDescriptor::dominance, Body::isStructural", "include/Simu/physics/Bodies.inl.hpp: Bodies::Bodies, Proxies::applyImpulse, Proxies::applyPositionCorrection", "src/Simu/physics/World.cpp: World::step, World::applyForces, World::updateBodies"]}
{"id": "C92", "title": "World::step throws when immovable bodies overlap", "statement": "If two different bodies to which contacts give inverse mass zero (dominance zero, or infinite mass) have overlapping colliders without a contact between them, and no constraint between the bodies disables contacts, then World::step throws, whatever the other objects are (assertions compiled in). Looking for new contacts throws for no other reason.", "quantifier": "all reachable worlds, all positive time steps, all pairs of overlapping colliders in any order, all constraints whose virtual functions are defined", "why_tests_cant": "Two pieces of ground placed with overlapping boxes is an ordinary level; whether the exception always appears, and only then, depends on every other object of the world and on the order in which pairs are found.", "anchors": ["src/Simu/physics/World.cpp: World::updateBodies, makeContactConstraint, World::step", "include/Simu/physics/ConstraintInterfaces.hpp: Constraint::Constraint", "include/Simu/physics/Bodies.inl.hpp: isBodyStructural"]}
{"id": "C93", "title": "A joint makes the smallest correction and never adds energy", "statement": "A velocity solve of an equality constraint without restitution or damping gives the two bodies, of all velocities that satisfy the constraint, those nearest to the ones they had (distance measured by kinetic energy), and no others are as near. When the constraint asks for no speed of its own and nothing immovable moves, the kinetic energy lost equals that of the velocity change, so none is added. A one-sided constraint of one row adds no energy either, even when the solve takes back impulse accumulated earlier.", "quantifier": "all constraint functions, jacobians, velocities, accumulated impulses and time steps; two different bodies of any masses and inertias, each of which may be immovable; exact arithmetic", "why_tests_cant": "optimality over all velocities satisfying the constraint, for every constraint and mass ratio", "anchors": ["include/Simu/physics/ConstraintSolver.hpp: EqualitySolver::solveVelocity, InequalitySolver::solveVelocity"]}
