# Formal model of Simu: design

Target: Matthieu-Beauchamp/Simu (C++20), read as text from `/repo`.  Nothing is
built or run.  The model is written in Gallina (Coq 8.16.1) in
`rocq/theories/`; `properties.jsonl` lists the properties, `MANIFEST.json`
maps each of them to the theorems.

## 1. How numbers are modelled

The C++ code is `float` code.  Every numeric function of the model is written
once, over a record `Num` of operations (`Num.v`: `add sub mul div opp sqrt
ltb leb eqb ofZ` and the two comparisons with `INFINITY`), exactly in the shape
of the C++ expression (same association, same comparison operator, `>=` of
matrices as "not less").  Three instances are used:

* `F32` -- IEEE-754 binary32 with round-to-nearest-even, NaN, infinities and
  signed zero (Flocq `BinarySingleNaN`, one NaN; NaN payloads are not
  observable through any operation the code uses).
* `RNum` -- the real numbers of the standard library ("exact arithmetic").
* any `Num` -- results about pointer structure, histories and decision logic
  are proved for an *arbitrary* `Num`, so they hold for binary32 including NaN.

A property whose C++ form is only true without rounding is stated "in exact
arithmetic" and proved for `RNum`.  Where rounding breaks the property in
`float`, a `_refuted` theorem exhibits a binary32 witness.
Compiler freedom (FMA contraction, x87 excess precision, `-ffast-math`) is not
modelled.

## 2. How effects are modelled

* Undefined behaviour (null/dangling dereference, out-of-bounds access, read of
  an indeterminate value) is a distinct outcome `UB`; a thrown
  `simu::Exception` (`SIMU_ASSERT`) is a distinct outcome `Throw`; a loop that
  exhausts its fuel is a distinct outcome `Fuel`.  Theorems say which outcome
  occurs.
* Pointer structures (R-tree nodes, bodies/constraints/contacts in a world) live
  in a finite heap map with allocation and free, so sharing, dangling links,
  leaks and double frees can be expressed.
* Loops are structural recursion when the bound is syntactic, otherwise
  recursion on fuel with a proof that the fuel suffices.
* Unspecified behaviour (tie-breaking of `std::priority_queue`, addresses
  returned by `operator new`, iteration order of `std::unordered_map`) is an
  explicit parameter of the model, universally quantified in the theorems.

## 3. Trusted base

* The Coq 8.16.1 kernel (and `vm_compute`, used for witnesses and examples).
* The faithfulness of the hand translation: every definition carries a comment
  with file and lines in `/repo`; simplifications are stated there and in
  section 5.
* Axioms: none of our own.  Theorems over `RNum` depend on the axioms of the
  standard library's real numbers; section 6 lists the output of
  `Print Assumptions` for each theorem.

## 4. Plan per property

| id | what is modelled | how it is proved |
|----|------------------|------------------|
| C01 | `booleanSort` on a list/array, two indices | loop invariant (permutation, prefix/suffix) |
| C02-C04 | `Block`, `FreeListAllocator` state: blocks with sorted free ranges; addresses in N, sizes mod 2^64 | invariant over histories: free ranges sorted, disjoint, coalesced; live + free ranges tile the block |
| C05, C07-C09 | `Interval`, `BoundingBox` over `Num` | geometry over R; order-only lemmas for F32 without NaN |
| C06 | same functions at F32 | Flocq exactness of sums on a grid; witnesses by `vm_compute` |
| C10-C21 | heap of nodes with parent/left/right/bounds/data; every RTree member function in an error/state monad | representation predicate (heap represents an inductive tree), contexts for upward walks, refinement to a bag |
| C22-C26 | matrices as row-major lists/functions with dimensions; 2x2 Cramer; Gram-Schmidt QR; LCP; PGS | algebra over R; case analysis; cycle witness |
| C27-C33 | barycentric coordinates, support, polygon properties, edges, GJK | geometry over R (nra, convexity), induction over vertex lists |
| C34-C36 | Rotation/Translation/Transform, Camera, scroll | ring identities over R, invariant over camera calls |
| C37-C39 | mass properties, impulses, force fields | field identities over R, permutation invariance |
| C40-C46 | world state machine: bodies, constraints, contacts, tree entries; islands as graph search | invariants over histories, graph reachability; witnesses for refuted parts |
| C47-C53 | constraint solvers, contacts, limits, motors, distance, materials | linear algebra over R; decision logic for any Num |
| C54-C56 | profiler, renderer batching mod 2^16, grabber | recurrence, invariants over histories, witness |
| C57-C59 | `PhysicsBody::addCollider`, `Colliders` with a collider rejected by the tree | identities over R, witnesses over R; state after the throw |
| C60-C61 | `drawPoint`, `drawLine` with the 8-bit counter | wrap-around induction; geometry over R |
| C62-C63 | contact solve, `isfinite` guards of the solvers | complementarity over R; decision logic for any `Num` |
| C64-C66 | world histories: commands, step, clear, library constraints | invariant of the heap over all histories; witnesses by `vm_compute` at F32 |
| C33, C67, C68 | `Gjk`, `Simplex`, `Polytope` over vertex lists | loop invariants over R (sign of cross products), termination by counting support points; witnesses by `vm_compute` at F32 |
| C69-C72 | `clipInside`, `ContactManifold::update` | exact arithmetic over R from C67; convexity of the sides; witnesses by `vm_compute` at F32 |
| C57-C59, C73 | `PhysicsBody::addCollider`, `Colliders` with a collider rejected by the tree | identities over R, witnesses over R; state after the throw |
| C74-C78 | `Scene::step`, keys, camera panning, `windowToScene`, `BoxSpawner::doGui` | invariants over event histories; identities over R; exhaustive evaluation at F32 of the 361 slider positions and 256 colour values |
| C79, C80 | `World::step` and `Island` as a whole: motion of the bodies | frame argument over the islands for any `Num`; over R the sums over all bodies are kept by every solver call; induction over steps, new contacts join their bodies by the inverses of the masses |
| C81, C82 | `solvePositions` of contacts, joints and the mouse constraint | the linear system solved, over R; energy argument for solvability; mean value theorem for the rotation |
| C83 | `LinearField`, `World::applyForces` | induction over the visited colliders over R |
| C84 | `RTree::height` | structural induction on the tree behind the heap; witness by `vm_compute` at F32 |
| C85, C86 | position solve of `LimitsSolver`, `InequalitySolver` | one-row projected Gauss-Seidel solved exactly over R; mean value theorem for the rotation |
| C87 | `BoundingBox::scaled` | linear arithmetic over R; witness by `vm_compute` at F32 |
| C88-C90 | `Application` and its scenes: `registerScene`, `changeScene`, event dispatch, Engine Settings window, `useTool` | invariant over all event histories; witnesses by `vm_compute` at F32 |
| C91 | `World::step` as a whole: bodies of dominance zero | every solver call leaves an end of zero inverse mass as it is, over R; a moving body is in one island only; new contacts inherit the zero |
| C92 | `World::updateBodies`, the constructor of `Constraint` | frame argument: while the contacts are searched no contact of the pair can be made, yet the pair is reported; nothing else throws |
| C93 | `EqualitySolver`, `InequalitySolver`: energy of the velocity solve | Pythagoras in the kinetic energy: the impulse does no work on velocities that satisfy the constraint |

Nothing in the list is inexpressible; where the model covers only part of a
property the manifest says `partial` and names the missing part.

## 5. What is modelled, what is not, and the simplifications

Modelled, function by function (the comment above each definition gives the
lines):

| model file | code |
|------------|------|
| `Algo.v` | `utility/Algo.hpp` (`squared`, `clamp`, `booleanSort`) |
| `Alloc.v` | `utility/Memory.hpp`: `Block`, `FreeListAllocator` |
| `Box.v` | `math/Interval.hpp`, `physics/BoundingBox.hpp`, `physics/BoundingBox.cpp`, the `Vec2` operators they use |
| `RTree.v` | `physics/RTree.hpp`, `physics/RTree.inl.hpp`: every member function |
| `Mat.v` | `math/Matrix.hpp`, `math/Matrix.inl.hpp`: algebra, `Solver` for 2x2 and n x n, projected Gauss-Seidel, `solveLcp` |
| `Geom.v` | `math/BarycentricCoordinates`, `math/Geometry`, `math/Edges`, `math/Polygon` |
| `Gjk.v` | `math/Gjk.hpp`, `math/Gjk.inl.hpp` |
| `Transform.v` | `physics/Transform.hpp`, `app/Camera`, `Scene::onMouseScroll` |
| `Body.v` | `physics/Collider.hpp`, `physics/Body`, `physics/ForceField.hpp`, `physics/Material.hpp`, `physics/CombinableProperty.hpp`, `physics/Profiler.hpp`, `World::applyForces`, `World::updateBodies` |
| `Constraint.v` | `physics/Bodies`, `physics/ConstraintSolver.hpp`, `physics/ConstraintFunction.hpp`, `physics/DistanceConstraint.hpp`, `physics/Motors.hpp`, `app/MouseConstraint.hpp`, the joints of `physics/Constraint.hpp` |
| `Contact.v` | `ContactConstraint` (`physics/Constraint.hpp`), the frame part of `physics/ContactManifold.hpp` |
| `World.v` | `physics/World`, `physics/Island.hpp`, `physics/PhysicsObject.hpp`, `physics/ConstraintInterfaces.hpp`, the Grabber of `app/Tool.cpp` |
| `WorldDemo.v` | the library's constraints as behaviours of the world model |
| `Manifold.v` | `physics/ContactManifold.hpp`: `update`, `computeContactEdge`, `computeContacts`, the constructor |
| `Scene.v` | `app/Scene`: `step`, `moveCamera`, `onKeypress`, play speed and pause; `windowToScene` and the pause button of `app/Application.cpp`; the orientation and colour of `BoxSpawner::doGui` |
| `App.v` | `app/Application`: `registerScene`, `changeScene`, the dispatch of key, scroll and resize events, the scene and tool selectors and the Engine Settings window of `doGui`; `Scene::init`, `reset`, `useTool`, key R; `World::updateSettings` |
| `Renderer.v` | the batching of `app/Renderer.cpp`, `drawPoint`, `drawLine` |

Not modelled: the rest of `app/Application` (window creation, GLFW, ImGui widgets, drawing),
`app/VisiblePhysics.hpp`, the rest of `app/Tool.cpp`, `app/Event.hpp`, OpenGL and shaders,
`math/Random`, `utility/Callable.hpp`, `utility/View.hpp` (replaced by lists),
`utility/FloatingPointExceptions.hpp`, the demos, and the `operator<<`
functions.

Simplifications, by file:

* All files: a thrown exception ends the call; destructors that run during
  stack unwinding are not modelled, except in the world, where the state at the
  moment of the throw is kept.  Integer types are unbounded unless a wrap is
  named in the definition (allocator sizes modulo 2^64, renderer indices modulo
  2^16 and 2^8).
* `Algo.v`: the predicate of `booleanSort` depends only on the element.
* `Alloc.v`: addresses are integers; copies and rebinds share one state.
* `RTree.v`: the two allocators are two heaps which never fail.  Heights are
  not wrapped.
* `Mat.v`: one element type; index functions instead of row-major arrays
  (`MatFacts.flat_lt` and `flat_inj` justify this).
* `Transform.v`: `sin` and `cos` are parameters (`Trig`); over the reals they
  are the standard functions.
* `Constraint.v`: solver proxies are indices into the island arrays.
* `Contact.v`: the manifold update (`ContactManifold::update`) and the support
  vertex used by `updateContacts` are parameters, so the theorems hold for any
  contact points.  `Manifold.v` models the update itself.
* `Manifold.v`: a collider is its transformed vertex list, its bounding box is
  the one of these vertices; GJK and EPA run with fuel.
* `World.v`: the R-tree is the list of its elements; the pairs found by
  `updateAndCollide`, the elements found in a region, the addresses of new
  colliders and the order of the contact map are oracles.  Virtual functions
  of user classes do nothing, except `shouldDie`, which is an oracle constant
  during one cleanup.  The profiler and the allocators are left out.  A
  destroyed identity is never used again, so each use after destruction is
  seen as `Bad`.
* `Scene.v`: the scene is shown by an application, its virtual functions are not
  overridden and the current tool leaves the keys to it.  A step of the world is
  represented by the time it is given.  The GUI library reports the user's
  choice; pi is the real number, respectively the float nearest to it.
* `App.v`: one application with one window.  A world is the list of calls made to it
  and its settings; the user's `Scene::init` is one such call.  Tools are names.
  Scenes are numbered in the order of construction, a destroyed one is `None`;
  scene names are compared as pointers, as the code does, and are numbers.
* `Renderer.v`: the OpenGL calls are a log of the uploaded buffers.

## 6. Assumptions of each theorem

Output of `Print Assumptions` for every theorem of the `P_*.v` files.  The axiom
sets are:

* **none** -- closed under the global context.
* **R** -- the standard library's real numbers:
  `ClassicalDedekindReals.sig_forall_dec`, `ClassicalDedekindReals.sig_not_dec`,
  `FunctionalExtensionality.functional_extensionality_dep`.
* **R+classic** -- the same and `Classical_Prop.classic` (used by Flocq and by
  the trigonometric functions of the standard library).

| file | none | R | R+classic |
|------|------|---|-----------|
| `P_Alloc.v` | `C02_safe`, `C02_blocks`, `C02_null`, `C03_all_returned`, `C03_no_idle_block`, `C04_succeeds`, `C04_wraps_refuted`, `C04_overlap_refuted`, `C04_slack_refuted` | -- | -- |
| `P_App.v` | `C88_attached`, `C88_some`, `C88_safe`, `C88_hidden_undefined`, `C88_select`, `C89_frozen`, `C89_input`, `C89_frame`, `C89_camera`, `C89_tool`, `C90_window`, `C90_never_sleeps` | -- | `C90_harmless_refuted` |
| `P_Body.v` | -- | `C37_sum`, `C37_monoid`, `C37_total`, `C37_history`, `C37_order`, `C37_polygon`, `C38_impulse`, `C38_pair`, `C39_gravity`, `C43_immobile`, `C43_clockwise_refuted`, `C43_counterclockwise`, `C53_symmetric`, `C53_priority`, `C53_value`, `C53_between`, `C53_unit`, `C54_statistics`, `C54_partial_measures`, `C54_moved_timer`, `C57_displacement`, `C57_upright`, `C58_velocity_field`, `C57_C58_refuted`, `C59_rejected_stays`, `C59_later_removals_throw`, `C73_wakes`, `C73_stays_awake_refuted` | -- |
| `P_Box.v` | `C01_boolean_sort`, `C05_invalid_overlaps_nothing`, `C07_combined_least`, `C07_combined_contains`, `C07_combined_laws`, `C07_equality_is_same_points`, `C08_contains_iff`, `C09_vertex_box_tightest`, `C09_sides_attained`, `C09_indeterminate_iff_empty` | `C05_overlaps_iff_common_point`, `C05_overlaps_sym`, `C87_scaled` | `C06_grid_exact`, `C06_touching_missed_refuted`, `C06_disjoint_reported_refuted`, `C07_instances`, `C87_ratio_one_refuted` |
| `P_Constraint.v` | `C49_cone`, `C52_min_only`, `C63_velocities`, `C63_positions` | `C47_velocity`, `C47_soft`, `C47_solvable`, `C47_hinge_solvable`, `C47_hinge`, `C47_dominance`, `C47_dominance_keeps`, `C48_momentum`, `C48_coincide`, `C48_distance`, `C48_contact`, `C49_exact`, `C50_reached`, `C50_inactive`, `C50_switch`, `C50_keep`, `C50_sign`, `C50_lower`, `C50_upper`, `C51_settings`, `C51_translation`, `C51_components`, `C51_rotation`, `C51_off`, `C51_accel`, `C52_construct`, `C52_exact`, `C52_current`, `C62_one`, `C62_two`, `C62_mass` | `C49_binary32` |
| `P_Geom.v` | `C29_support_any`, `C29_zero_direction`, `C31_vertices_any`, `C31_throws`, `C31_otherwise_succeeds`, `C32_edges`, `C32_next_previous`, `C32_inverse` | `C27_segment_nearest`, `C28_triangle_nearest`, `C28_weights`, `C28_tiny_clockwise_refuted`, `C29_support`, `C30_first_vertex`, `C30_direction`, `C30_polygon_direction`, `C30_translation`, `C30_degenerate`, `C30_box`, `C30_triangle`, `C30_chord`, `C31_polygon`, `C32_sides` | -- |
| `P_Gjk.v` | -- | `C33_decision`, `C33_decision_flat`, `C67_penetration_minimal`, `C67_zero`, `C68_separation_reaches` | `C33_on_a_line_refuted`, `C33_binary32_refuted`, `C67_touching_throws_refuted`, `C68_not_shortest_refuted`, `C68_throws_refuted` |
| `P_Joints.v` | -- | `C81_rest`, `C81_one`, `C81_two`, `C81_asked`, `C82_rotation`, `C82_mouse_velocity`, `C82_mouse_solvable`, `C82_rows`, `C82_singular`, `C82_inequality`, `C83_global`, `C83_region`, `C51_target`, `C51_target_torque`, `C86_one_sided`, `C93_least`, `C93_energy`, `C93_one_sided`, `C93_nonneg` | `C82_hinge`, `C82_weld`, `C82_mouse`, `C85_distance` |
| `P_Manifold.v` | `C70_tolerance` | `C69_clip`, `C70_contacts`, `C71_rectangles`, `C72_separate`, `C72_zero_throws` | `C71_any_convex_refuted`, `C72_touching_refuted` |
| `P_Mat.v` | `C22_storage` | `C22_product_associative`, `C22_product_distributes`, `C22_identity_neutral`, `C22_transpose`, `C22_product_is_composition`, `C22_linear`, `C23_valid_iff_det`, `C23_solve`, `C23_singular_throws`, `C23_invert`, `C24_valid_iff_independent`, `C24_solve`, `C24_singular_throws`, `C24_factors`, `C24_invert`, `C25_lcp`, `C25_not_positive_definite_refuted`, `C26_fixed_point`, `C26_exact_fixed_point_solves` | `C26_never_returns` |
| `P_Motion.v` | `C79_free` | `C80_behaviour`, `C80_momentum`, `C80_centre`, `C80_joints`, `C80_flight`, `C80_flight_behaviour`, `C91_ground`, `C91_platform`, `C91_behaviour` | `C79_asleep_refuted`, `C91_dominance_refuted` |
| `P_RTree.v` | `C10_no_undefined_behaviour`, `C10_pointer_structure`, `C11_contents`, `C11_size`, `C12_iteration`, `C13_bounds_are_unions`, `C16_updateAndCollide`, `C17_iterators_stable`, `C17_end_stable`, `C18_erase_returns_next`, `C21_owned_once`, `C21_destroy_frees_all`, `C21_clear_frees_all`, `C21_moved_from_is_indeterminate`, `C21_move_assignment_swaps`, `C84_height` | `C14_forEachIn_exact`, `C14_forEachAt_exact`, `C15_forEachOverlapping_exact`, `C15_list_exact`, `C20_insert_picks_cheapest` | `C14_forEachIn_binary32`, `C14_forEachAt_binary32`, `C15_forEachOverlapping_binary32`, `C15_list_binary32`, `C16_laws_hold`, `C18_erase_loop_visits_all_refuted`, `C18_erase_loop_visits_once_refuted`, `C19_insert_defined_iff_finite`, `C84_logarithmic_refuted` |
| `P_Renderer.v` | `C55_batches_draw_the_fans`, `C55_too_few_vertices_throw`, `C55_any_size_refuted`, `C60_point_ends`, `C60_large_precision_never_ends`, `C60_precision` | `C61_line_is_a_rectangle`, `C61_zero_length_throws` | -- |
| `P_Scene.v` | `C74_speed`, `C78_button`, `C78_key_refuted` | `C74_notches`, `C74_time`, `C75_exact`, `C75_negative_refuted`, `C76_pan`, `C77_cursor` | `C74_notches_refuted`, `C74_paused`, `C74_zero_refuted`, `C75_float`, `C75_float_refuted`, `C75_colour` |
| `P_Transform.v` | -- | `C34_products_compose`, `C34_products_matrix`, `C34_matrix_acts`, `C34_inverse`, `C34_inverse_rotation`, `C34_inverse_translation`, `C34_inverse_matrix`, `C34_isometry`, `C34_around`, `C34_identity`, `C35_positive`, `C35_inverse`, `C35_visible`, `C35_onto`, `C36_scroll` | `C35_positive_float` |
| `P_World.v` | `C40_no_time`, `C40_strict`, `C41_islands`, `C42_waking`, `C42_asleep`, `C44_tidy`, `C44_step`, `C44_log`, `C44_fate`, `C45_one`, `C45_step`, `C46_step`, `C46_clear`, `C46_safe`, `C56_none_left`, `C56_step`, `C56_works`, `C56_dangles`, `C56_clear`, `C64_step`, `C64_clear`, `C64_library`, `C65_step`, `C65_bare`, `C65_clear`, `C66_firm`, `C92_throws`, `C92_blame` | `C41_library` | `C41_limits_refuted`, `C42_leak_refuted` |
