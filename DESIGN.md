# Formal model of yade-mpi: design

## Method

The source in /repo is read as text and re-stated, function by function, as
total computable Gallina functions (Coq 8.16.1).  Each definition carries a
comment with the file and lines it models and every simplification made.
Undefined behaviour of the C++ (null dereference, out-of-range access, division
by zero where it matters) is a distinct outcome of the model, never silently totalised.

Per area `X` there are the following files in `rocq/theories`:

| file            | contents |
|-----------------|----------|
| `X_Model.v`     | the model only, no proofs |
| `X_Spec.v`      | the small independent specification used in statements |
| `X_Proofs*.v`   | lemmas |
| `X_Example.v`   | concrete scenes used as witnesses |
| `X_Props.v`     | the property theorems, with `Print Assumptions` below and an `Example` that the hypotheses are met beside each |

Naming: `Cnn_...` for the theorems of property Cnn; suffix `_partial` when only
part of the claim is proved; suffix `_refuted` when the faithful model violates
the claim (a concrete history or value as witness).

Each area was also tested with wrong models: `seeded/LOG.jsonl` lists each edit, the
claim it breaks and the theorems that failed.

## Areas

| area | properties | code modelled | model | proof |
|---|---|---|---|---|
| World | C01-C09, C47 | core/BodyContainer.*, core/InteractionContainer.*, core/Clump.{hpp,cpp} (membership), py/wrapper/yadeWrapper.cpp (append, erase, clump, addToClump, releaseFromClump, insertAtId) | heaps of body and interaction objects, slots, linear array of interactions, per-body maps | invariants by induction over lists of API calls; purge by any partition among threads |
| Force | C10-C13, C43 | core/ForceContainer.hpp, core/ForceContainerParallel.cpp | per-thread arrays, sizes, permanent arrays; addition is any operation | refinement to a map from id to sum |
| Coll | C14-C17, C30, C42, C52, C53 | pkg/common/InsertionSortCollider.*, pkg/common/Collider.cpp (aperiodic) | three sorted lists of bounds, sequential and parallel insertion sort, initial sort | invariant: pairs overlapping in the lists are the interactions, over all histories |
| Stride | C18, C54 | pkg/common/Dispatching.cpp (BoundDispatcher), NewtonIntegrator.cpp (saveMaximaDisplacement), InsertionSortCollider.cpp (isActivated) | boxes enlarged by sweep lengths, reference positions, when the collider runs | invariant over histories of steps: bodies stay within their boxes |
| Scene | C19, C20, C44 | core/Scene.cpp (moveToNextTimeStep), yadeWrapper.cpp (engines) | engines are arbitrary state transformers | simulation between sub-stepping and stepping |
| Runner | C21, C22, C45, C46, C50 | core/ThreadRunner.cpp, core/SimulationFlow.cpp, core/Omega.cpp, yadeWrapper.cpp (run, pause, step, wait, load) | small-step interleavings of the caller and background threads | invariants over all schedules |
| Subd | C23, C24, C48, C49 | core/Subdomain.{hpp,cpp} | encoding of states into lists of numbers, bounding box of a subdomain | round trip by induction |
| Comm, Mpi | C25-C28, C51 | py/mpy.py (splitScene, exchanges, mergeScene) over MPI point-to-point messages | processes with FIFO channels, buffered or synchronous sends, local work any function | progress measure (no deadlock), determinism (confluence), agreement of lists, invariants over runs |
| Disp | C31, C32, C55, C56 | lib/multimethods/*.hpp, core/Dispatcher.hpp, pkg/common/Dispatching.cpp, pkg/common/InteractionLoop.cpp (cached functors) | classes as indices with a base-class function, callback matrices, caches | invariant: cached entry = specification |
| Energy | C33, C58 | core/EnergyTracker.hpp, lib/base/openmp-accu.hpp (array accumulator) | threads interleaved at each access to the map and the accumulators; memory with cache-line padding | refinement to a map name -> sum; memory bounds |
| Period | C34, C57 | pkg/common/PeriodicEngines.hpp | whole numbers for virtual and real time | invariant over sequences of calls |
| Attr | C35, C36 | core/State.*, core/Body.hpp (blockedDOFs), yadeWrapper.cpp (tags) | bit masks and strings as lists of bytes | induction on strings |
| Vec | (library) | Eigen vectors, matrices, quaternions | real numbers | ring identities |
| Rigid | C37, C38, C59, C60 | core/Clump.{hpp,cpp} (moveMembers, addForceTorqueFromMembers, updateProperties, inertia) | real numbers; eigenvector solver and integration grid are parameters | algebra; induction over members |
| Newton | C29, C39, C61-C67 | pkg/dem/NewtonIntegrator.cpp, pkg/dem/Shop_01.cpp (kineticEnergy, momentum, angularMomentum) | real numbers, all bodies, clumps, blocked DOFs, damping, periodic velocity correction | exact characterisation of the result for each body; invariants over steps |
| Law | C40, C68-C72, C74-C76 | pkg/dem/Ig2_Sphere_Sphere_ScGeom.cpp, Ig2_Facet_Sphere_ScGeom.cpp (wall), ScGeom.cpp, FrictPhys.cpp, ElasticContactLaw.cpp, pkg/common/MatchMaker.*, Dispatching.hpp | real numbers; contributions to forces as lists | algebra; induction over contacts and over sequences of steps |
| Step | C73 | Law_Model and Newton_Model together |  | partition of bodies into families (clump with members), sums invariant under permutation |
| Cell | C41, C77-C82 | core/Cell.{hpp,cpp}, pkg/common/Bo1_Aabb.cpp (sphere), NewtonIntegrator.cpp (velGrad), with Newton_Model for bodies | real numbers, wrapNum also in binary64 (SpecFloat) | caches are functions of the shape in every history; linear algebra; invariant over steps |
| Peri | C83-C90 | pkg/common/InsertionSortCollider.{hpp,cpp}, periodic scene | integer coordinates, exact arithmetic; std::sort any sorting function | refinement of the circular list to a periodic sequence over Z; swap invariants; termination measure; coverage of all overlapping pairs |
| Tree | C91-C96 | py/tree_decomp.py, py/mpy_bisection.py (first part of splitScene, updateDomainBounds), core/Subdomain.cpp (setMinMax) | integer coordinates, processes of Comm; number of levels related to the real logarithm | matched phases give progress and determinism; induction over levels; bounds on e |
| Dom | C97-C100 | py/domaindecomposition.py | real coordinates and rational factors without rounding; the random points are inputs; the least squares problem in closed form | tiling by induction over the cells; the sum of distances to the corners is strictly monotone in the distance from the centre; invariant of the loop |
| Loop | C101-C106 | pkg/common/InteractionLoop.{hpp,cpp}, core/Interaction.{hpp,cpp}; the use of isActive in three laws | functors as parameters; one iteration of the parallel loop as one transition; static casts to a wrong class, exceptions in parallel regions and exit(1) as outcomes | case analysis of one iteration, invariants over histories of an interaction, permutations of the iterations |
| Grid | C107-C109 | pkg/dem/FlatGridCollider.{hpp,cpp} | real coordinates without rounding; the container of interactions as a list; overflow of the number of cells and access outside of the grid as undefined behaviour | the segment between two centres has a common point, whose cell contains both spheres; invariant over simulations (distance moved since the last run) |
| Quick | C110-C112 | pkg/common/SpatialQuickSortCollider.{hpp,cpp} | integer coordinates as in Coll; std::sort is any correct sorting function; entries never written are None | induction over the sorted list |
| Tstep | C113-C115 | pkg/dem/GlobalStiffnessTimeStepper.{hpp,cpp}, core/TimeStepper.hpp, Shop::PWaveTimeStep | real numbers without rounding; arrays as functions, with their sizes; unassigned and null values as undefined behaviour. The specification has its own mechanics: linear contacts and NewtonIntegrator's scheme without damping | a discrete energy is conserved by the scheme and is positive if the time step meets the criterion of each body (virtual work, Cauchy-Schwarz per contact); invariants over repeated computations; growth by a factor 3 per step in the refuted case |
| Pred | C116-C118 | py/pack/_packPredicates.cpp | real numbers without rounding; comparisons with NaN written out; inGtsSurface and predicates written in python left out | induction over expressions; a primitive is an intersection of constraints each of which changes by at most the distance moved (1-Lipschitz); Cauchy-Schwarz for bounding boxes of inclined cylinders |
| Merge | C119 | py/mpf.py (mergeScene), py/mpf_bisection.py (mergeScene) | built on the packing of Subd; MPI Gather and Gatherv as in the standard; switching engines off is left out | induction over the processes: displacements are sums of sizes before, slices of the gathered array are the buffers sent; invariant over the workers merged so far |
| Interp | C120 | lib/smoothing/LinearInterpolate.hpp, periodicWrap of pkg/common/PeriodicEngines and KinematicEngines | real numbers without rounding; the lookup position as an unsigned 64 bit number | the search as a loop with a decreasing measure; uniqueness of the piecewise linear function |
| Kine | C121-C125 | pkg/common/KinematicEngines.{hpp,cpp} with NewtonIntegrator of Newton | real numbers without rounding; loops over ids one after another; ids within range | invariant over the steps: a body's state is the prescribed motion of its initial state; trigonometric sums; induction over the engines of a combination |
| Plot | C126-C130 | py/plot.py (data, images, text) | dictionaries as lists with an arbitrary first key; numbers any type; figures left out; python's str of floats rounds to twelve digits | invariant over all calls; refinement of histories by a transposed table; loop invariant for the expansion of vectors; split of text into lines and words inverts join |
| Cloud | C131-C135 | pkg/dem/SpherePack.{hpp,cpp}: makeCloud with its three kinds of radii, attempts, seed | real numbers without rounding; random numbers any sequence; fuel for attempts and spheres; 1/3 power by Rpower | induction over placed spheres and attempts; nearest images in boxes and cells with right angles; monotonicity of interpolated radii |
| Spack | C136-C141 | pkg/dem/SpherePack.{hpp,cpp}: repetition, bounding box, transformations, distribution of sizes, lists, clumps | real numbers without rounding; the box of no spheres is None; files and random packings elsewhere (Cloud) | images of copies by division with remainder; invariants over folds (box, histogram, groups); rotations by unit quaternions keep norms |
| Ccloud | C142-C144 | pkg/dem/SpherePack.{hpp,cpp}: makeClumpCloud | real numbers without rounding; random numbers any sequence; memory behind the last sphere any function; fuel for clumps | invariant over clumps placed; bounding spheres and nearest images; induction over attempts |
| Ptext | C145 | pkg/dem/SpherePack.cpp: toFile, fromFile; pkg/dem/Shop_01.cpp: loadSpheresFromFile | how numbers are written and read is any format whose numbers are words that can be read again | split of text into lines and words inverts join; pigeonhole over texts of bounded length |
| Coh | C146-C150 | pkg/dem/CohesiveFrictionalContactLaw.{hpp,cpp}: Ip2, Law2, deprecated engine, energies; uses Vec, Rigid, Law | real numbers without rounding, division by zero is not a number; geometry (ScGeom6D: rotation increments) is given; strength matched by any function of two materials | case analysis of the law with projections onto balls; induction over histories and over sorted sequences of steps |
| Hull | C151-C153 | lib/computational-geometry/Hull2d.hpp; py/_utils.cpp: approxSectionArea | real numbers without rounding; bodies that are not spheres left out | invariant of the scan (strict turns, points seen are beyond all edges, last edge may be vertical), identity of three cross products; telescoping sums |
| Field | C154-C159 | core/BodyContainer.hpp: iterators; pkg/common/GravityEngines.cpp; pkg/common/ForceEngine.cpp; uses Interp, Kine, Newton, Rigid | real numbers without rounding, NaN is a separate value; one thread; HdapsGravityEngine left out | invariant of the iterator, uniqueness of sorted lists; engines that act on each body by itself as a pointwise function; projections onto lines |
| Strain | C160-C164 | pkg/dem/UniaxialStrainer.{hpp,cpp}; uses Vec, Attr (blocked degrees of freedom) | real numbers without rounding, NaN is a separate value; assertions off; the integrator moves driven bodies by their velocity, anything may happen to the others | description of one action for all bodies; induction over steps with arbitrary forces and motions of others |
| Pcell | C165-C172 | pkg/dem/PeriIsoCompressor.{hpp,cpp}: PeriIsoCompressor, PeriTriaxController; uses Vec, Cell | real numbers without rounding, NaN is a separate value; unbalanced force, sum of forces and stiffness of the isotropic compressor are arbitrary inputs; logarithm of negative numbers is the outcome NaN; Peri3dController left out | induction over steps with arbitrary measurements; description of one successful action; logarithms and exponentials of the standard library |
| Shape | C173-C178 | pkg/common/Facet.cpp; pkg/common/Bo1_Aabb.cpp; pkg/dem/Ig2_Facet_Sphere_ScGeom.cpp (spheres); pkg/dem/Ig2_Box_Sphere_ScGeom.cpp; py/utils.py: facet; uses Vec, Rigid, Law | real numbers without rounding, division by zero is an outcome of its own; timing left out; FACET_TOPO off as in the code | triangle as intersection of half planes; angles at nearest points; in-plane coordinates for corners; componentwise clamping |
| Triax | C179-C188 | pkg/dem/TriaxialStressController.{hpp,cpp}; pkg/dem/Shop_02.cpp: growParticles (masses, radii); uses Vec, Law | real numbers without rounding, NaN and infinite multipliers are one value; sizes not positive are left to hypotheses; without FlowEngine; a world is what walls are, other bodies appear as volumes and contacts with force and stiffness | description of one action by induction over distinct walls; runs as a relation with arbitrary forces and other bodies between steps; invariant of last translations |
| Fact | C189-C197 | pkg/dem/SpheresFactory.{hpp,cpp}; pkg/dem/DomainLimiter.cpp: DomainLimiter; pkg/common/InsertionSortCollider.cpp: probeBoundingVolume; core/BodyContainer.cpp: erase (of clumps with members); uses Vec | real numbers without rounding; random numbers are an arbitrary stream in [0,1); materials are their densities; color, blocked degrees of freedom, inertia and masks of new bodies left out; a step is bounded by fuel, with an outcome of its own if it runs out | induction over steps and over the loop of a step; invariant of the greedy choice (no bin is ahead by more than one particle); telescoping sums; lists of ids to delete |
| Hertz | C198-C210 | pkg/dem/HertzMindlin.{hpp,cpp} (without capillarity); uses Vec, Rigid, Law, Coh (matchmakers) | real numbers without rounding, roots of negative numbers and divisions by zero are an outcome of their own; timing and logging left out; an exception, a null pointer and a value that is not a number are distinct outcomes | case analysis of one step into its parts (normal force, damping, friction, moments); induction over steps; derivatives of u^(3/2) and u^(5/2) |
| Fser | C211-C217 | core/ForceContainerSerial.cpp; core/ForceContainerParallel.cpp: addForceUnsynced, addTorqueUnsynced; py/wrapper/yadeWrapper.cpp: pyForceContainer (force_get, torque_get); uses Force | any arithmetic with 0+0=0 (a commutative monoid to compare builds); ids are natural numbers; logging left out | refinement of an abstract container of total functions; comparison with Force through its theorems; invariant of sizes against maximal ids |
| Pfac | C218-C225 | py/gridpfacet.py: gridNode, gridConnection, pfacet, pfacetCreator1, pfacetCreator3, gtsPFacet; pkg/common/Grid.cpp: Ig2_GridNode_GridNode_GridNodeGeom6D::go (positions); py/mpy.py: maskedPFacet, maskedConnection, genLocalIntersections, unboundRemoteBodies, reboundRemoteBodies, ERASE_REMOTE, bounded flags in mergeScene, receiveForces | positions with decidable equality; masses, sizes, materials left out; triangles have different corners; contacts of subdomains are given | invariant of the scene and of the three lists while triangles are added (one node per vertex, one connection per pair, facets complete); invariant of a pass over interactions; invariants of lists with marks |
| Fvis | C226-C234 | pkg/dem/FrictViscoPM.{hpp,cpp}; uses Vec, Rigid, Law | real numbers without rounding; quotients by zero, roots of negative numbers and exceptions of matchmakers are an outcome of their own (but for energies); logging left out | decomposition of a step into spring, dashpot and friction; refinement of Law without damping; elementary geometry of vectors |
| Lint | C235-C239 | py/linterpolation.py | real numbers without rounding; integers (for which python 2 rounds quotients) left out; exceptions are outcomes of their own | induction over points; roots of the quadratic equation expressed by the height of the line; strict monotonicity of area; derivative of area is the height |
| Flat | C240-C245 | pkg/dem/FlatGridCollider.{hpp,cpp}, the removal of unseen interactions in pkg/common/InteractionLoop.cpp | real numbers without rounding, integers without overflow; whether a pair may collide is a function of ids; displacements are bounded by velocity times time step | common point of two balls and its cell; nearest point of a cell; mixed radix for cell numbers; projection of the list of interactions to a pair, counting shared cells; triangle inequality over histories |
| Mort | C246-C249 | pkg/dem/MortarMat.{hpp,cpp} | real numbers without rounding; quotients by zero are outcomes of their own; uninitialized stresses of a new layer are zero (nothing reads them); geometry and rotation of shear as in Law | case analysis; convexity of each of the three inequalities; induction over steps; moment about any point |
| Lud | C250-C255 | pkg/dem/LudingPM.{hpp,cpp} | real numbers without rounding; values that are not a number are None, infinite overlap is an outcome of its own; option YADE_DEFORM off; geometry and rotation of shear as in Law | invariant over histories of overlaps (sound contact); case analysis of the three branches; computed histories for refutations; moment about any point |
| Wire | C256-C262 | pkg/dem/WirePM.{hpp,cpp} | real numbers without rounding; quotients by zero and elements of empty lists are outcomes of their own; the random number is given; points are kept with the stiffness before them | invariant (first point moves along the curve) over histories, refinement to a function of the largest elongation; induction over points; Lipschitz bound of piecewise linear curves |
| Inel | C263-C271 | pkg/dem/InelastCohFrictPM.{hpp,cpp} | real numbers without rounding; quotients 0/0 of Ip2 are None, quotients by stiffnesses in the law are of numbers other than zero; the elastic twist is an input; elastic energies left out; geometry and rotation of shear as in Law | invariant over histories of depths, refinement to a function of the largest deformation; monotonicity of breakage over steps; symmetry by cases; computed histories for refutations; moment about any point |
| Pare | C272-C274 | pkg/common/ParallelEngine.{hpp,cpp} | activation and action of one engine are one indivisible step; schedules are lists of choices of a group; timing left out | induction over schedules: exchange of independent steps, trace of each group; induction over lists |
| Regi | C275-C279 | core/Omega.cpp: buildDynlibDatabase, isInheritingFrom, isInheritingFrom_recursive; py/wrapper/yadeWrapper.cpp: questions about classes; py/system.py: childClasses | names are numbers in the same order; special names of bases are leaves; fuel for recursion, none is a call that does not return | induction over rounds with permutations; induction over ranks (answers equal the transitive closure); invariant of the registry over both passes; histories of questions |
| Topo | C280-C283 | pkg/dem/FacetTopologyAnalyzer.{hpp,cpp} | real numbers without rounding; results of std::sort are any sorted permutation; angles between facets left out; compiled with FACET_TOPO | sweep with early end equals filtering all pairs (sortedness, Cauchy-Schwarz); invariant of numbering over the order of indices; case analysis of edges; induction over pairs |
| Reco | C284-C285 | pkg/common/Recorder.hpp, pkg/dem/ForceTorqueRecorder.{hpp,cpp} | files are lists of rows; opening fails only for the empty name; the axis is normalized by the caller; real numbers without rounding | induction over histories of rows; identity of double cross products, induction over bodies |
| Bubb | C286-C289 | pkg/dem/BubbleMat.{hpp,cpp}, pkg/dem/Ip2_ElastMat.cpp | real numbers without rounding; results that are not a number and members never set are outcomes of their own; aperiodic scenes | derivative and monotonicity of the exponential; induction over iterations; invariant over histories (members are set); field identities |
| Wavg | C290-C292 | lib/smoothing/WeightedAverage2d.hpp | real numbers without rounding; density and distribution function of boost are given functions; polygons are given as predicates; lists of cells are one list of elements with the cell of each | floor and cells of points; permutations of filtered lists (each element once); bounds of weighted sums by induction; computed counterexamples |

## Plan and state per property

"proved": the theorems say what the property says.  "partial": the full
statement fails on the model (`_refuted`), or only a part of it is proved; the note says what is missing.

| id | property | file | theorems | status |
|---|---|---|---|---|
| C01 | Body ids are stable positions | World_Props | `C01_body_ids_stable_partial`, `C01_append_returns_length`, `C01_body_ids_stable_refuted` | partial. False: O.bodies.insertAtId of a body that is already in the container makes two ids share one body. Proved for all histories whose inserted bodies are not in the container. |
| C02 | Clump membership is consistent | World_Props | `C02_clumps_consistent_partial`, `C02_erase_effect`, `C02_clump_effect`, `C02_addToClump_effect`, `C02_release_effect`, `C02_clumps_consistent_refuted` | partial. False after addToClump with a clump (or a member of another clump) as argument: the absorbed members are released when the old clump is erased. Proved for all other histories, with the exact effect of each call. |
| C03 | Erasing a body ends its interactions | World_Props | `C03_erase_ends_interactions` | proved. The purge criterion must hold for pairs with a missing body. |
| C04 | At most one interaction per pair, found from both ends | World_Props | `C04_one_per_pair`, `C04_insert_effect`, `C04_request_erase_effect` | proved.  |
| C05 | Interaction container structures agree | World_Props | `C05_containers_agree` | proved.  |
| C06 | Interaction container structures agree when body ids are recycled | World_Props | `C06_recycled_ids_refuted`, `C06_recycled_ids_partial`, `C06_no_trace_after_clear_partial` | partial. False: the purge leaves an entry for a lower-numbered erased body in the other body's map. Proved when no map or listed interaction mentions the reused id. |
| C07 | Purge removes exactly the obsolete potential contacts, whatever the number of threads | World_Props | `C07_purge_exact` | proved.  |
| C08 | O.interactions.eraseNonReal leaves only real interactions | World_Props | `C08_eraseNonReal_refuted`, `C08_eraseNonReal_partial` | partial. False: out-of-bounds iteration as soon as an interaction other than the last one is not real. The partial theorem characterises exactly when it works. |
| C09 | Saving and reloading keeps exactly the real interactions | World_Props | `C09_reload_exact_partial`, `C09_reload_exact_refuted` | partial. False when a saved interaction has a missing body: loading stops there. Proved for the states of C05, where this cannot happen. |
| C10 | Forces are the sum over all threads | Force_Props | `C10_reading_is_sum_over_threads`, `C10_schedule_independent`, `C10_reading_order_exact` | proved. Each call is atomic; exact arithmetic for the first two, any arithmetic with 0+0=0 for the third. |
| C11 | Reading forces before synchronisation is refused and synchronising twice changes nothing | Force_Props | `C11_unsynced_read_refused`, `C11_add_makes_reads_raise`, `C11_sync_idempotent` | proved.  |
| C12 | Permanent forces persist | Force_Props | `C12_permanent_forces_persist_refuted`, `C12_permanent_forces_persist_partial` | partial. False in general: setting a permanent force on a low id shrinks the arrays and drops those of ids 100 or more above. Proved when all permanent ids lie within a window of 100. |
| C13 | reset clears the per-step sums only | Force_Props | `C13_reset_clears_step_sums_only`, `C13_resetAll_clears_everything` | proved.  |
| C14 | Collider finds every overlapping pair | Coll_Props | `C14_every_overlap_is_found_refuted`, `C14_recycled_id_refuted`, `C14_every_overlap_is_found_partial` | partial. False if a pair becomes able to collide otherwise than by moving (mask change, id used again). Proved for all histories in which this does not happen, with any number of threads; aperiodic scenes. |
| C15 | Collider creates only justified pairs | Coll_Props | `C15_new_pairs_are_justified` | proved. Aperiodic scenes. |
| C16 | Bound lists are sorted permutations | Coll_Props | `C16_lists_are_sorted` | proved. Aperiodic scenes; number of ids not decreasing, see C52. |
| C17 | Purged pairs are re-detected | Coll_Props | `C17_only_separated_pairs_are_purged`, `C17_purged_pairs_return` | proved. Return under the condition of C14 on what changes between runs. |
| C18 | Skipping the collider is safe while bodies stay inside their enlarged boxes | Stride_Props | `C18_bodies_inside_their_boxes_are_found` | proved. For all histories; the collider's own subdomain and mask are constant and the interaction loop does not lose interactions (hypothesis fair). |
| C19 | Sub-stepping equals stepping | Scene_Props | `C19_substeps_equal_step`, `C19_substeps_equal_steps`, `C19_mixed_mode` | proved. Engines are arbitrary state transformers. |
| C20 | Engine list changes take effect at a step boundary | Scene_Props | `C20_engine_change_mid_step_refuted`, `C20_empty_engine_list_refuted`, `C20_engine_change_at_boundary_partial`, `C20_dead_engines_do_not_run` | partial. False when the list is changed while sub-stepping or set to an empty list; proved for non-empty changes at step boundaries. |
| C21 | O.run(n) does exactly n steps | Runner_Props | `C21_run_n_is_exactly_n_steps`, `C21_run_never_blocks` | proved. For every interleaving of the caller and the background thread; steps that raise are excluded. |
| C22 | Two steps never overlap | Runner_Props | `C22_steps_never_overlap_refuted`, `C22_steps_never_overlap_partial`, `C22_background_steps_exclusive_partial` | partial. False for O.pause() followed by O.step(); proved for background steps among themselves, and for all histories without pause. |
| C23 | Body states survive transmission between workers | Subd_Props | `C23_states_survive_transmission` | proved.  |
| C24 | States with bounds survive transmission | Subd_Props | `C24_states_with_bounds_refuted`, `C24_states_with_bounds_partial` | partial. False for a body without bound, which arrives with a zero-sized bound at the origin. Proved when every body sent has a bound. |
| C25 | Splitting and exchanging never deadlock | Mpi_Props | `C25_no_deadlock_refuted`, `C25_no_deadlock_partial` | partial. False with the default ACCUMULATE_FORCES: a worker sends its forces by a blocking send even if the master does not expect them, so without buffering all processes wait for ever. Proved for any script, interleaving, buffering choice and number of processes without force accumulation, or if the master has a bounded body touching every subdomain. Local computations are abstract (assumptions in the record good). |
| C26 | Received states are applied to the right bodies | Mpi_Props | `C26_states_reach_the_right_bodies` | proved. Under the hypotheses of C25_no_deadlock_partial. |
| C27 | Master forces are the current ones | Mpi_Props | `C27_master_forces_current_refuted`, `C27_master_forces_current_partial` | partial. False: an unreceived force message of an earlier step shifts all later ones. Proved when the master has a bounded body touching every subdomain. |
| C28 | Merging collects every body from its owner | Mpi_Props | `C28_merge_collects_from_owner` | proved. Under the hypotheses of C25_no_deadlock_partial. |
| C29 | Each body is integrated by exactly one process | Newton_Props | `C29_one_process`, `C29_every_body_owned` | proved. Bodies of all processes are moved by the one whose number the body (or its clump) carries. Over the reals. |
| C30 | Every cross-domain pair is examined by the owning side(s) | Coll_Props | `C30_pairs_are_examined_by_their_owners`, `C30_subdomains_meet_foreign_bodies` | proved.  |
| C31 | One-argument dispatch picks the nearest ancestor | Disp_Props | `C31_nearest_functor`, `C31_nearest_unique`, `C31_duplicates_ignored` | proved. For functor lists without two functors of the same class; of such duplicates the first is kept (C31_duplicates_ignored). |
| C32 | Two-argument dispatch is independent of lookup history | Disp_Props | `C32_independent_of_history_refuted`, `C32_ambiguity_reported_refuted`, `C32_nearest_pair_partial`, `C32_answer_stable_partial` | partial. False: cached answers of ancestor pairs make later lookups ambiguous, and an ambiguous pair raises only the first time. Proved if no ancestor pair was looked up before; an answer once given is stable. |
| C33 | Energy totals are independent of threads | Energy_Props | `C33_energies_exact_partial`, `C33_names_mixed_refuted`, `C33_contribution_lost_refuted`, `C33_kept_engines_refuted` | partial. False when the tracker is cleared or replaced while engines remember indices, and when two threads create the same name at the same time. Exact values, names and total are proved for all other schedules. |
| C34 | Periodic engines respect their period and count | Period_Props | `C34_at_most_nDo_refuted`, `C34_at_most_nDo_partial`, `C34_never_within_period`, `C34_whichever_comes_first`, `C34_starts_again` | partial. False for nDo=0 with initRun (runs once). Proved for nDo>=1 and, for the spacing, without restriction. |
| C35 | blockedDOFs string round trip | Attr_Props | `C35_get_after_set`, `C35_set_after_get`, `C35_letter_blocks_its_own`, `C35_axis_letter`, `C35_from_vectors`, `C35_dynamic` | proved.  |
| C36 | Tags behave as a map | Attr_Props | `C36_other_keys_unchanged_refuted`, `C36_last_assigned_partial`, `C36_bad_key_raises`, `C36_keys` | partial. False when reading keys that contain '=' (they cannot be assigned, but can appear to exist). Proved for all keys without '='. |
| C37 | Clump members move rigidly with the clump | Rigid_Props | `C37_round_trip`, `C37_rigid` | proved. Over the reals: rounding is not modelled. |
| C38 | Clump collects forces and torques of members exactly | Rigid_Props | `C38_forces_collected` | proved. Over the reals: rounding is not modelled. |
| C39 | Blocked degrees of freedom are not accelerated | Newton_Props | `C39_blocked_axis`, `C39_free_axis`, `C39_position`, `C39_blocked_periodic` | proved. Over the reals. In periodic scenes the velocity of the cell is added to blocked components too: C39_blocked_periodic states exactly what is added. |
| C40 | Contact forces obey action and reaction | Law_Props | `C40_contact_point_partial`, `C40_spheres_partial`, `C40_touching`, `C40_ways_agree`, `C40_scene_partial`, `C40_action_reaction_refuted` | partial. False with the default sphericalBodies=true for a sphere on a wall (documented in the code as wrong for facets and boxes, and also the only way in periodic scenes). Proved for all contacts when forces are applied at the contact point, and for spheres in any case. |
| C41 | Wrapping into the periodic cell | Cell_Props | `C41_wrap_partial`, `C41_period_partial`, `C41_far_refuted`, `C41_double_refuted` | partial. Proved with exact real numbers. False if the number of periods does not fit an int (undefined), and false in double precision: a coordinate just below zero is wrapped to the size itself. |
| C42 | Group masks | Coll_Props | `C42_may_collide` | proved.  |
| C43 | Unsynchronised force reads agree with synchronised ones | Force_Props | `C43_unsynced_read_agrees_refuted`, `C43_unsynced_read_agrees_partial`, `C43_unsynced_read_after_sync_partial` | partial. False in general: out-of-range read of the permanent array. Proved without permanent values, and right after a sync. |
| C44 | An exception in an engine does not corrupt the step | Scene_Props | `C44_exception_keeps_clock`, `C44_retry_after_exception`, `C44_substep_exception_retries_item` | proved.  |
| C45 | O.run(n) right after O.pause() makes n steps | Runner_Props | `C45_run_after_pause_refuted`, `C45_run_after_pause_partial` | partial. False: a pending stop request ends the new run at once. Proved once earlier background threads have ended. |
| C46 | Loading or resetting while running is safe | Runner_Props | `C46_reload_while_running_refuted`, `C46_reload_while_running_partial` | partial. False if the background thread has not yet locked its mutex. Proved when it has. |
| C47 | A body erased and appended again interacts normally | World_Props | `C47_reappended_body_refuted`, `C47_reappended_body_partial` | partial. False: the body keeps its old interaction map. Proved for a body whose map is empty. |
| C48 | A state message of the wrong length is rejected | Subd_Props | `C48_wrong_length_rejected_refuted`, `C48_wrong_length_partial` | partial. False: the length check only logs; a short message is read beyond its end. The partial theorem says exactly what happens. |
| C49 | The box of a subdomain is the union of the boxes of its bodies | Subd_Props | `C49_subdomain_box` | proved. Coordinates are integers with infinities; NaN not modelled. |
| C50 | An exception in a background step ends the run | Runner_Props | `C50_exception_ends_run` | proved.  |
| C51 | Distributing a scene with erased bodies works | Mpi_Props | `C51_split_with_erased_bodies_refuted`, `C25_no_deadlock_partial` | partial. False: workers read an attribute of the erased body. Proved for scenes without erased bodies. |
| C52 | Removing bodies does not break contact detection | Coll_Props | `C52_fewer_bodies_refuted`, `C52_no_read_outside_partial` | partial. False: with fewer bodies than at the last run the lists are left empty and read. Proved when the number of ids does not decrease or the collider is reset. |
| C53 | Parallel sorting stays inside its lists | Coll_Props | `C53_parallel_sort_stays_inside_refuted`, `C53_parallel_sort_stays_inside_partial` | partial. False for many threads and few bounds (64 threads, 2000 bounds). Proved for at least 2 t^2 bounds. |
| C54 | The collider runs before a body leaves its box | Stride_Props | `C54_collider_runs_in_time_partial`, `C54_replaced_integrator_refuted`, `C54_turning_body_refuted`, `C54_scripted_move_refuted` | partial. False when the integrator engine is replaced (the collider keeps reading the old one), when a non-spherical body turns in place, and for one step after a script moves a body. Proved without these. |
| C55 | A changed functor list takes effect for existing bodies and interactions | Disp_Props | `C55_shape_uses_new_list_refuted`, `C55_interaction_uses_new_list_refuted`, `C55_new_functor_for_old_pair_refuted`, `C55_shape_partial`, `C55_interaction_partial` | partial. False: shapes keep the bound functor, interactions the geometry functor (or the information that there is none). Proved for new bodies and new or reset interactions. |
| C56 | Functors receive the arguments they expect | Disp_Props | `C56_arguments_fit`, `C56_interaction_order`, `C56_lookup_ends` | proved.  |
| C57 | A periodic engine keeps its announced schedule | Period_Props | `C57_exact_schedule_partial`, `C57_first_run_partial`, `C57_no_initial_run_refuted`, `C57_nDo_runs_refuted`, `C57_first_run_refuted` | partial. False: an engine added at a step >= iterPeriod runs at once, the initial call without a run counts for nDo, a missed firstIterRun disables the engine. The exact schedule is proved for engines added before step iterPeriod. |
| C58 | Accumulators stay inside their memory | Energy_Props | `C58_no_overread_refuted`, `C58_one_thread_partial`, `C58_few_names_partial` | partial. False with two threads and more names than fit into one cache line (memcpy reads the new length from the old chunk). Proved for one thread and for few names. |
| C59 | A clump has the mass and inertia of its members | Rigid_Props | `C59_clump_inertia_partial`, `C59_overlap_partial`, `C59_single`, `C59_turned_member_refuted`, `C59_left_handed_refuted` | partial. False for turned members that are not spheres (Clump.cpp:207 turns the inertia with the transpose) and for eigenvector matrices of determinant -1. Proved for all other clumps of members that do not overlap, for overlapping spheres of density 1 (the integration over the grid counts every covered cell once), and for one member. |
| C60 | Clump properties scale with density | Rigid_Props | `C60_density_scales_partial`, `C60_density_scales_overlap_partial`, `C60_overlap_inertia_refuted` | partial. False for the inertia of overlapping members (Clump.cpp:178 omits the density). Proved for all other quantities. |
| C61 | Kinetic energy reported is that of the bodies | Newton_Props | `C61_kinetic_partial`, `C61_tracked_partial`, `C61_tracked_refuted` | partial. O.energy['kinetic'] is wrong for turned aspherical bodies (NewtonIntegrator.cpp:55 uses T^T I T instead of T I T^T). utils.kineticEnergy() is proved right when the flag aspherical is set where needed. |
| C62 | Orientations stay normalized | Newton_Props | `C62_unit_orientations` | proved. Over the reals. |
| C63 | Numerical damping never adds kinetic energy | Newton_Props | `C63_damping_power_partial`, `C63_damping_partial`, `C63_damping_refuted` | partial. False for a body whose velocity changes its sign within the step; proved for all others. |
| C64 | Angular velocity agrees with angular momentum | Newton_Props | `C64_angular_velocity_partial`, `C64_angular_velocity_refuted` | partial. False: NewtonIntegrator.cpp:262 rotates with a quaternion that is not yet normalized. The partial theorem gives the exact error. |
| C65 | Motion does not depend on the order of bodies | Newton_Props | `C65_order_irrelevant` | proved.  |
| C66 | Momentum reported is that of the bodies | Newton_Props | `C66_momentum_partial`, `C66_angular_momentum_partial`, `C66_momentum_refuted`, `C66_angular_momentum_refuted` | partial. False for clumps (counted by themselves and through their members) and for the spin of spherical bodies (angMom is not updated). Proved for scenes without clumps and with angMom up to date. |
| C67 | Bodies outside of the integrator's mask do not move | Newton_Props | `C67_mask_partial`, `C67_mask_meaning`, `C67_mask_refuted` | partial. False for the aspherical integrator, which ignores the mask. Proved for all other bodies. |
| C68 | Contact forces are repulsive and obey friction | Law_Props | `C68_coulomb`, `C68_nearest_unique`, `C68_reset_iff_open`, `C68_detection` | proved. Exact real arithmetic. |
| C69 | Energy traced at contacts | Law_Props | `C69_tracing_neutral`, `C69_plastic_work_partial`, `C69_tracked_dissipation_refuted` | partial. False: nothing is added to O.energy['plastDissip'] if the functor's traceEnergy is also on. The rest is proved. |
| C70 | Rigid motion causes no shear | Law_Props | `C70_rigid_motion` | proved. Exact real arithmetic. |
| C71 | Closed cycles leave no shear displacement | Law_Props | `C71_no_ratcheting_partial`, `C71_no_ratcheting_refuted` | partial. False if avoidGranularRatcheting is off; proved for any number of steps if it is on (the default). |
| C72 | The shear force follows the contact | Law_Props | `C72_magnitude_partial`, `C72_tangent_partial`, `C72_carried_along_refuted` | partial. False: the rotation is linearized. The partial theorems bound the error exactly. |
| C73 | Momentum is conserved | Step_Props | `C73_momentum`, `C73_angular_momentum`, `C73_conservation` | proved. Scenes that are not periodic, without damping, blocked degrees of freedom, or density scaling; equal principal moments for the angular momentum; exact real arithmetic. |
| C74 | Stiffness of a contact | Law_Props | `C74_series_partial`, `C74_once`, `C74_series_refuted` | partial. False if both poisson ratios are 0: the shear stiffness is 0/0. Proved for positive values. |
| C75 | The order of bodies in an interaction does not matter | Law_Props | `C75_order_of_bodies`, `C75_same_forces` | proved.  |
| C76 | MatchMaker looks up pairs | Law_Props | `C76_first_match`, `C76_symmetric`, `C76_fallback` | proved.  |
| C77 | Deformation of the periodic cell accumulates | Cell_Props | `C77_deformation`, `C77_increment`, `C77_velGrad` | proved.  |
| C78 | Wrapping points of a sheared cell | Cell_Props | `C78_wrap`, `C78_unique`, `C78_period`, `C78_shear`, `C78_box` | proved. Exact real numbers; see C41 for rounding. |
| C79 | Velocity of periodic images | Cell_Props | `C79_shift_velocity` | proved.  |
| C80 | Bodies follow homogeneous deformation of the cell | Cell_Props | `C80_homogeneous_partial`, `C80_changing_dt_refuted` | partial. Proved for constant dt. False if dt changes: the body has been moved with the old dt and the cell is updated with the new one. |
| C81 | Boxes of spheres in a sheared cell | Cell_Props | `C81_sphere_box_partial`, `C81_sphere_box_refuted` | partial. False for general shapes: the sphere sticks out of its box. Proved if one base vector is perpendicular to the two others. |
| C82 | Assigning the shape of the cell makes it the reference | Cell_Props | `C82_new_reference_partial`, `C82_new_reference_refuted` | partial. False: assigning hSize does not reset trsf. Proved for setBox, and for hSize if trsf is identity. |
| C83 | Periodic overlap test is exact and reports the right image | Peri_Props | `C83_never_fails`, `C83_finds`, `C83_sound`, `C83_image`, `C83_large_refuted` | partial. Exact arithmetic. All proved for boxes up to half the cell. False: larger boxes are accepted if they come first in the pair. |
| C84 | Bounds stay circularly sorted in a periodic scene | Peri_Props | `C84_lists` | proved. Histories: first run, resets, regular runs after arbitrary motion with the same bodies, runs from scratch if no body has its bounds in two cells. |
| C85 | Collision detection is complete in a periodic scene | Peri_Props | `C85_complete_partial`, `C85_added_refuted`, `C85_restarts_refuted` | partial. Proved for the histories of C84. False when bodies are added in a regular run, and after several runs from scratch that leave the bounds of a body in different cells. |
| C86 | The cell offset of a potential interaction is the one in which the boxes overlap | Peri_Props | `C86_new_partial`, `C86_stale_refuted` | partial. Proved when the interaction is created. False later: the test that keeps a potential interaction ignores the image. |
| C87 | No undefined behaviour in a periodic scene without bodies, or after switching to periodic | Peri_Props | `C87_reset_partial`, `C87_empty_undefined`, `C87_switch_undefined` | partial. False in both cases: division by zero, and vectors cleared while their size is kept. Proved safe after a reset with bodies. |
| C88 | A run from scratch is complete whatever happened before | Peri_Props | `C88_scratch` | proved.  |
| C89 | A periodic collider run changes only what it must | Peri_Props | `C89_first`, `C89_next` | proved.  |
| C90 | A periodic collider run terminates | Peri_Props | `C90_first`, `C90_next` | proved. Assumes that the bodies of potential interactions still have boxes. |
| C91 | Splitting a scene by recursive bisection always ends | Tree_Props | `C91_ends_partial`, `C91_enough`, `C91_few_refuted` | partial. False with too few spheres: process_data indexes an empty list in rank 1, and the other processes wait for ever. Proved, for all executions, when every split that is made has a body to split (in particular when there are as many spheres as workers). |
| C92 | Bisection assigns each sphere to exactly one worker | Tree_Props | `C92_assigned_partial` | partial. Proved under the condition of C91. |
| C93 | Bisection balances the load | Tree_Props | `C93_balance_partial`, `C93_factor_two_partial`, `C93_levels_refuted`, `C93_nothing_refuted` | partial. False: the number of levels is computed with the natural logarithm, so that with 17, 18 or at least 65 workers some get no sphere at all; with 3 workers and 3 spheres rank 1 gets none. Proved: within one body for 2, 4, 8 and 16 workers, within a factor of two for up to 16. |
| C94 | Bisected subdomains are separated along an axis | Tree_Props | `C94_separated_partial`, `C94_axis_partial` | partial. Proved under the condition of C91. |
| C95 | Bisection keeps the members of a clump together | Tree_Props | `C95_clump_split_refuted` | partial. False: two spheres are always given to different workers (two to four workers), clumps are not considered. Nothing positive to prove. |
| C96 | Bounds of a subdomain are those of its members | Tree_Props | `C96_bounds_partial`, `C96_grow_refuted` | partial. False after REASSIGN_SUBDOMAINS: the list of members then contains the body of the subdomain, whose bound is the former box, so that the box never shrinks. Proved for the first split. |
| C97 | A domain divided by hand | Dom_Props | `C97_manual_partial`, `C97_missing_refuted` | partial. False when a direction is left out: there is then no subdomain at all and findSubdomain returns 0, the master, for every point. Proved if all three numbers are given. |
| C98 | findSubdomain tells the subdomain a point is located within | Dom_Props | `C98_find_partial`, `C98_everywhere_partial`, `C98_halves_refuted`, `C98_large_refuted` | partial. False: with 9 workers in a cube, one block is halved and points of the neighbour block are given to one of the halves, as the smaller block has the smaller sum of distances; in a very large domain 0 is returned. Proved for blocks of equal size in domains of up to 400 km. |
| C99 | Automatic decomposition for the desired number of threads | Dom_Props | `C99_automatic_partial`, `C99_thin_refuted`, `C99_long_refuted` | partial. False: the loop does not end if an edge in x or z is shorter than 5 mm, nor if an edge in x or z is between 5 and 10 mm and there are more cubes of 5 mm than threads (1 m x 1 m x 7 mm and 4 threads). Proved: whenever it ends, there are exactly numThreads subdomains which tile the box. |
| C100 | Decomposition around a cloud of points | Dom_Props | `C100_nearest_partial`, `C100_remote_partial`, `C100_distance_partial`, `C100_last_partial`, `C100_remote_refuted` | partial. False: the list of drawn points is emptied before each draw, so that always the last one is kept. Proved: the choice among the points of the list, and that findSubdomain returns the nearest point. |
| C101 | Each contact is evaluated exactly once per step, whatever the schedule of the threads | Loop_Props | `C101_schedule`, `C101_each`, `C101_contact`, `C101_given`, `C101_callbacks`, `C101_frame` | proved. Functors are parameters; one iteration is one transition. |
| C102 | The step in which a contact was made is recorded | Loop_Props | `C102_since`, `C102_fresh` | proved.  |
| C103 | After the loop an interaction is real only if its bodies exist and touch | Loop_Props | `C103_real_partial`, `C103_shape_refuted` | partial. False if the shape of a body is removed while it is in contact (also for clumps): the interaction is skipped and stays real for ever. Proved otherwise. |
| C104 | Interactions not seen by the collider are removed | Loop_Props | `C104_kept_partial`, `C104_unseen_refuted` | partial. False: the pairs are only appended to eraseAfterLoopIds, which nothing reads or empties; the interaction stays and the list grows in each step. Proved: exactly what happens. |
| C105 | No forces from an interaction which is not active | Loop_Props | `C105_inactive_partial`, `C105_ignored_refuted`, `C105_reset_refuted` | partial. False: Law2_ScGeom_FrictPhys_CundallStrack does not look at isActive; Law2_ScGeom_ViscElPhys_Basic returns false, by which the interaction is reset to active, and the forces are back one step later. Proved for laws which add no forces to an inactive interaction. |
| C106 | The interaction loop ends normally or reports an error | Loop_Props | `C106_complete_partial`, `C106_order_refuted`, `C106_missing_refuted` | partial. False: the order found by the dispatcher of Ip2 functors is ignored (an assertion only), so that a functor for two different materials is given them in the wrong order and casts them to the wrong class; without Ip2 functor an exception leaves a parallel region, without Law2 functor exit(1) is called. Proved if functors are found and accept both orders. |
| C107 | FlatGridCollider: spheres that touch have an interaction at every step | Grid_Props | `C107_touching_partial`, `C107_once_partial`, `C107_corner_refuted` | partial. False: Grid::pt2int subtracts mn[1] from all three coordinates, so that with aabbMin off the diagonal (x=y=z) cells and their closest points disagree and contacts are missed. Proved, over whole simulations, for aabbMin on the diagonal. |
| C108 | FlatGridCollider stays within its memory | Grid_Props | `C108_memory_partial`, `C108_index`, `C108_large_refuted` | partial. The index of a cell is within the data for every point. False for large grids: the number of cells is computed as int and overflows (2000 cells in each direction). Proved for grids of less than 2^31 cells and scenes of spheres (other shapes throw). |
| C109 | FlatGridCollider: a contact has its forces from the step in which it is found | Grid_Props | `C109_first_refuted`, `C109_again_partial` | partial. False: a new interaction has iterLastSeen -1 unless the spheres share several cells, and is skipped as unseen in the step in which it is created. Proved: when it is found again it is seen. |
| C110 | SpatialQuickSortCollider finds exactly the pairs with overlapping boxes | Quick_Props | `C110_complete`, `C110_exact_partial` | partial. Completeness for all histories; exactness for scenes in which all bodies exist and have a bound (see C111). The boxes overlap strictly in y and z. |
| C111 | SpatialQuickSortCollider is memory safe for all scenes | Quick_Props | `C111_safe_partial`, `C111_no_bound_refuted`, `C111_erased_refuted` | partial. False: the list has one entry per body slot, so that with a body without bound entries are sorted which were never written, and after a body is erased an old entry makes it insert an interaction of a null body. Proved if all bodies exist and have a bound. |
| C112 | All colliders obey the rules about which bodies may collide | Quick_Props | `C112_rules_partial`, `C112_rules_refuted` | partial. False: SpatialQuickSortCollider never asks mayCollide. Proved only if all overlapping pairs are allowed; for InsertionSortCollider see C40, C42. |
| C113 | The automatic time step is stable | Tstep_Props | `C113_half_partial`, `C113_frictionless_partial`, `C113_aligned_partial`, `C113_default_refuted`, `C113_unloaded_refuted` | partial. False with the default safety coefficient 0.8: two equal balls with one contact along (1,1,1), for which the diagonal of the stiffness matrix is a third of its eigenvalue; and false for contacts that carry no force yet, which are not counted. Proved with density scaling or without, for any scene without clumps whose contacts carry force, if the coefficient is at most 1/2; at most 1/sqrt 3 without friction and moments; at most 1 if moreover normals are along axes. Missing: clumps, damping, viscous contacts, rounding. |
| C114 | Automatic time steps are positive, bounded and change slowly | Tstep_Props | `C114_bounds_partial`, `C114_negative_refuted` | partial. False for negative maxDt, which the documentation says to be ignored: it becomes the time step. Proved for all histories of scenes with positive settings. |
| C115 | The automatic time step is determined by the scene | Tstep_Props | `C115_defined_partial`, `C115_activated_partial`, `C115_unassigned_refuted`, `C115_not_resized_refuted`, `C115_null_refuted`, `C115_interval_refuted` | partial. False: with viscEl a dynamic body without contact uses an unassigned dt; viscEl switched on later leaves the viscosity arrays empty and memset writes outside; densityScaling with a body that is not an elastic sphere and has no contact uses a null pointer; interval 0 divides by zero. Proved without these. |
| C116 | A sphere accepted by a predicate lies in the volume | Pred_Props | `C116_ball_partial`, `C116_outside_partial`, `C116_ellipsoid_refuted`, `C116_symmetric_difference_refuted`, `C116_notch_refuted` | partial. False: inEllipsoid shrinks the semi-axes, which is not the set of points at that distance from the surface; the symmetric difference shrinks both volumes, so that a sphere in one may overlap the other; notInNotch uses the distance to the upper edge for points below the notch. Proved for all unions, intersections and differences of spheres, boxes, right-handed parallelepipeds and cylinders. Missing: hyperboloids (documented as inaccurate), inGtsSurface. |
| C117 | The bounding box of a predicate contains what it accepts | Pred_Props | `C117_box_partial`, `C117_ellipsoid_refuted` | partial. False if the pad exceeds the semi-axes of an ellipsoid: differences are squared and the ellipsoid grows again. Proved for all other predicates, cylinders and hyperboloids in any direction included. |
| C118 | Without pad a predicate is the volume it is named after | Pred_Props | `C118_points_partial`, `C118_left_handed_refuted`, `C118_flat_cylinder_refuted` | partial. False for degenerate arguments, which are not checked: a parallelepiped whose edges are left-handed contains nothing, a cylinder whose ends coincide contains every point. Proved for all other volumes. |
| C119 | Merging with one collective operation gives the master every body as its owner has it | Merge_Props | `C119_merge_partial`, `C119_no_box_refuted`, `C119_erased_refuted` | partial. False for bodies without box (clumps): the master gives them one at the origin; and if a worker has erased one of its bodies the master reads outside of the data. Proved if master and workers agree about who has which body and all bodies of workers have boxes. |
| C120 | Interpolation in a table gives the piecewise linear function, whatever was looked up before | Interp_Props | `C120_ends_partial`, `C120_value_partial`, `C120_wrap_partial`, `C120_empty_refuted`, `C120_jump_refuted` | partial. False for an empty table, the default (undefined behaviour), and for a jump given as two values at one time: the result depends on former lookups and may be NaN. Proved for increasing times; termination, no access outside and the range of values for all nonempty tables, sorted or not. |
| C121 | Rotation, helix and translation engines move bodies along the prescribed path without drift | Kine_Props | `C121_rotation_partial`, `C121_spin_partial`, `C121_translation_partial`, `C121_helix_partial`, `C121_interpolated_partial`, `C121_twice_refuted` | partial. False if an id is listed twice: the velocity is added twice. Proved for lists without repetition, unit axes, nonzero time steps and bodies whose motion is prescribed (not dynamic), not periodic. |
| C122 | A bicycle pedal goes round a circle without turning, starting at the given phase | Kine_Props | `C122_circle_partial`, `C122_phase_refuted` | partial. False: old minus new position is used as velocity, so the motion is that with the phase off by half a turn. Proved: circle, radius, plane, angular velocity, no rotation. |
| C123 | Harmonic engines oscillate about a fixed point and do not drift | Kine_Props | `C123_harmonic_partial`, `C123_rotation_partial`, `C123_bounded_partial`, `C123_drift_refuted` | partial. False if the time step is a multiple of the period: the body moves away for ever. Proved for all other constant time steps: exactly harmonic, with the amplitude multiplied by (w h/2)/sin(w h/2), half a step late. |
| C124 | A servo controller keeps to its maximum velocity and regulates the force along its axis | Kine_Props | `C124_speed_partial`, `C124_measured_partial`, `C124_inclined_refuted`, `C124_sign_refuted` | partial. False for inclined axes (the force is multiplied by the axis component by component) and for the sign (the norm is compared with the target). Proved: the bound on velocity and displacement for all forces; the regulated quantity along coordinate axes. |
| C125 | Combined kinematic engines add their velocities, in any order, and touch nothing else | Kine_Props | `C125_sum_partial`, `C125_order_partial`, `C125_frame_partial`, `C125_operator_refuted` | partial. False for the operator: ab+c changes ab. Proved for lists of ids without repetition. |
| C126 | All columns of plot data always have the same length | Plot_Props | `C126_equal_lengths` | proved. For every list of calls from the state after import, with any choice of the first key. |
| C127 | addData adds one row with the values given and nan elsewhere | Plot_Props | `C127_row_partial`, `C127_history_partial`, `C127_sequence_partial`, `C127_clash_refuted`, `C127_argument_refuted` | partial. False: a value given for a name that a component has too is lost, and the dictionary given as argument is changed. Proved for arguments without such names, with no images or at least one row of data; refinement of the history of calls by the transposed table. |
| C128 | reset resets all variables of the plot module | Plot_Props | `C128_reset_partial`, `C128_reset_refuted` | partial. False: labels are kept, and imgData={} assigns a local variable, so that images are kept and the next row of data is padded with nan. Proved for data and plots. |
| C129 | Images stay aligned with rows of data | Plot_Props | `C129_image_partial`, `C129_order_refuted`, `C129_empty_refuted`, `C129_data_refuted`, `C129_reverse_refuted` | partial. False: a new name of images that comes first in the dictionary gives AssertionError; an image plot without images gives IndexError; data are repeated instead of nan; reverseData leaves images in place. Proved if the first key is an old one and no column is empty. |
| C130 | Data saved as text can be read again | Plot_Props | `C130_text_partial`, `C130_space_refuted`, `C130_digits_refuted`, `C130_headers_refuted`, `C130_no_data_refuted` | partial. False for names with spaces, numbers of more than twelve digits, headers and empty data. Proved for names without white space and any printing of numbers without white space: the printed words are read again in their places. |
| C131 | Spheres of a random packing do not overlap | Cloud_Props | `C131_apart_partial`, `C131_periodic_partial`, `C131_orthogonal_partial`, `C131_skewed_refuted`, `C131_image_refuted` | partial. False in skewed cells: only the nearest image of each component is checked; a sphere larger than half the period touches its own image. Proved without periodicity, in periodic boxes and in cells with right angles, against all images of all former spheres. |
| C132 | Spheres of a random packing are in the box | Cloud_Props | `C132_box_partial`, `C132_cell_partial`, `C132_large_refuted` | partial. False for spheres wider than the box. Proved in each direction in which the sphere fits. |
| C133 | makeCloud returns the number of spheres it made and keeps others | Cloud_Props | `C133_count_partial`, `C133_kept_partial`, `C133_count_refuted`, `C133_lost_refuted` | partial. False for a packing that is not empty: the number returned counts former spheres, and a second attempt removes them. Proved for an empty packing; former spheres are kept if rMean is given. |
| C134 | The same seed gives the same random packing | Cloud_Props | `C134_process_partial`, `C134_second_refuted`, `C134_ignored_refuted` | partial. False: the generator is static, so that seeds of later calls are ignored. Proved: the same list of calls gives the same results at any time if the first seed is not zero. |
| C135 | Radii of a random packing are those asked for | Cloud_Props | `C135_mean_partial`, `C135_number_partial`, `C135_psd_partial`, `C135_defined_partial`, `C135_cumm_refuted` | partial. False: a distribution that begins with 0 or ends with 1 but not both is accepted (&& for ||) and read outside its ends. Proved for all others, over all attempts; real numbers without rounding. |
| C136 | A repeated periodic packing is the same infinite packing | Spack_Props | `C136_repeat_partial`, `C136_clumps_refuted` | partial. False: copies belong to no clump. Proved: all the rest, for all counts; real numbers without rounding. |
| C137 | cellFill gives the smallest repetition that covers the volume | Spack_Props | `C137_fill_partial`, `C137_small_refuted`, `C137_not_periodic_refuted` | partial. False: the cell covers the volume but the spheres need not, and a packing that is not periodic divides by zero before the check. Proved for positive sizes. |
| C138 | psd gives the distribution of sizes | Spack_Props | `C138_psd_partial`, `C138_order_refuted` | partial. False: the lists come in the other order than documented, and zero bins write outside. Proved: what each list is, for all packings and positive numbers of bins. |
| C139 | Moving, rotating and scaling a packing keep its shape | Spack_Props | `C139_moves_partial`, `C139_places`, `C139_density`, `C139_overlap`, `C139_box`, `C139_axis_refuted`, `C139_back_refuted`, `C139_flag_refuted` | partial. False: an axis that is not of unit length distorts; the centre of the box moves in a rotation, so that the opposite one does not restore; isPeriodic stays. Proved: all other parts, and restoring if the centre is kept. |
| C140 | A packing made from data is determined by the data | Spack_Props | `C140_lists_partial`, `C140_stale_refuted`, `C140_lost_refuted`, `C140_iteration_refuted` | partial. False: the cell size of the packing before stays, failing calls lose the packing, members made by the constructor are not initialised, iteration drops the clump. Proved: the spheres depend on the data alone and round trips. |
| C141 | getClumps splits the spheres | Spack_Props | `C141_clumps`, `C141_partition`, `C141_has` | proved.  |
| C142 | Clumps of a random packing are in the box and do not overlap | Ccloud_Props | `C142_box_partial`, `C142_periodic_partial`, `C142_trial_partial`, `C142_everywhere_partial`, `C142_existing_refuted`, `C142_image_refuted`, `C142_flat_refuted` | partial. False: spheres that were there before and images of the clump itself are not looked at; in a flat cell nothing is. Proved: new clumps are inside and clear of each other and of all images of each other. |
| C143 | makeClumpCloud adds rigid copies of the given clumps | Ccloud_Props | `C143_copies_partial`, `C143_numbers_refuted`, `C143_flag_refuted`, `C143_far_refuted` | partial. False: numbers of clumps are given again, isPeriodic is not set, a clump far from the origin is moved away from it and never placed. Proved: what is added are rigid copies in the order of the packing, as many as returned. |
| C144 | makeClumpCloud returns | Ccloud_Props | `C144_returns_partial`, `C144_behind_refuted`, `C144_empty_refuted` | partial. False: the sphere behind the last one is read; no clumps is undefined; an empty clump and a negative number never end. Proved: returns at most the number asked for if memory behind the list can be read. |
| C145 | A packing saved to a file and loaded is the same | Ptext_Props | `C145_round_partial`, `C145_replaces_partial`, `C145_reads`, `C145_cell_refuted`, `C145_flag_refuted`, `C145_failed_refuted`, `C145_carried_refuted`, `C145_exact_refuted` | partial. False: the cell stays if the file has none, isPeriodic is never set, a malformed file may change the cell, a line without clump takes the clump of the line before, and numbers of bounded length cannot be exact. Proved: spheres, clumps and a cell that is not zero come back rounded, for any format that can be read again, and saving again gives the same text. |
| C146 | Forces and moments of a cohesive contact are in balance | Coh_Props | `C146_balance`, `C146_forces`, `C146_torques` | proved.  |
| C147 | The strength of a cohesive contact is as documented | Coh_Props | `C147_forces_partial`, `C147_moments`, `C147_amplified_refuted`, `C147_tension_refuted`, `C147_negative_refuted` | partial. False: where cohesion disables friction the shear force grows when the bond breaks; plastic shear of a bond that is not fragile removes its tension; with negative adhesion a compressed contact is lost and shear strength is reduced. Proved: normal force, shear force and moments as documented if shear adhesion is not negative and does not disable friction, without creep. |
| C148 | A broken bond stays broken | Coh_Props | `C148_history`, `C148_no_tension`, `C148_lost_partial`, `C148_kept_refuted`, `C148_engine_refuted`, `C148_creep_refuted` | partial. False: a contact under tension that breaks in shear is kept; CohesiveFrictionalContactLaw ignores that a contact is lost, which then carries tension again; creep without viscosity gives no numbers. Proved: adhesion is kept or has gone over any history, broken contacts carry no tension, and exactly when a contact is lost. |
| C149 | setCohesionNow assigns cohesion in the current step only | Coh_Props | `C149_flag_partial`, `C149_off`, `C149_later`, `C149_reset`, `C149_new`, `C149_weakest`, `C149_asked`, `C149_existing`, `C149_again_refuted`, `C149_saved_refuted`, `C149_init_refuted` | partial. False: set again in a later step it is ignored; saved and loaded it is done once more; initCohesion makes contacts of materials without cohesion cohesive. Proved: set once, exactly the contacts of that step are assigned, with the strength of the materials; others are unchanged. |
| C150 | Stiffness and energies of cohesive contacts | Coh_Props | `C150_symmetric`, `C150_stiffness`, `C150_energy_partial`, `C150_value`, `C150_energy_refuted` | partial. False: without rolling or twisting stiffness the energy is not a number. Proved: parameters do not depend on the order of bodies, harmonic averages, sum of four parts, not negative if all stiffnesses are positive. |
| C151 | The convex hull contains all points | Hull_Props | `C151_hull_partial`, `C151_corners_partial`, `C151_undefined`, `C151_lost_refuted` | partial. False: if several points have the smallest x a corner may be lost; fewer than two points are undefined. Proved: contains all points and has no superfluous corners if one point is left of all the others, with any ties elsewhere. |
| C152 | The area of a polygon | Hull_Props | `C152_area`, `C152_hull_partial`, `C152_rotated`, `C152_reversed`, `C152_moved`, `C152_mirrored`, `C152_enlarged`, `C152_nothing_refuted` | partial. False: no corners are undefined. Proved: area of convex polygons as sum of triangles from any point inside; invariance for all polygons. |
| C153 | The area of a section through spheres | Hull_Props | `C153_section_partial`, `C153_nothing`, `C153_defined`, `C153_large_refuted` | partial. False: each sphere is replaced by a hexagon that is too high, so that the area of one sphere is more than that of the square around it. Proved: area of the hull of these hexagons if one corner is leftmost, 0 if no sphere meets the plane, never undefined. |
| C154 | A loop over the bodies meets each body once | Field_Props | `C154_each`, `C154_reads_partial`, `C154_behind_refuted` | partial. False: the iterator reads the slot behind the last one before it compares with the end. Proved: each body once and in order, and exactly which slots are read. |
| C155 | Homogeneous gravity | Field_Props | `C155_forces`, `C155_work`, `C155_balance_partial`, `C155_balance_refuted`, `C155_clump_partial`, `C155_clump_refuted` | partial. False: the work booked lacks 1/2 m g^2 dt^2 in each step; clumps with overlapping members get the sum of the masses of the members times g, which is not their mass times g. Proved: forces of all bodies, exact imbalance, acceleration of clumps; Newton's gravity has neither problem with clumps. |
| C156 | Gravity towards a body | Field_Props | `C156_forces_partial`, `C156_others_partial`, `C156_total_partial`, `C156_undefined_refuted` | partial. False: if the central body does not exist behaviour is undefined, it is so by default. Proved for all central bodies that exist. |
| C157 | Forces towards or away from an axis | Field_Props | `C157_axial_partial`, `C157_axial_others`, `C157_axial_nan_refuted`, `C157_radial_partial`, `C157_radial_others` | partial. False: a zero axis gives NaN to all bodies. Proved for all other axes. |
| C158 | A force given to bodies by id | Field_Props | `C158_force`, `C158_interpolated_partial`, `C158_wrap_refuted` | partial. False: one time and wrap gives NaN. Proved: forces of all bodies; interpolation itself is C120. |
| C159 | Drag slows bodies down | Field_Props | `C159_engine_partial`, `C159_laws`, `C159_slower_partial`, `C159_faster_refuted`, `C159_undefined_refuted` | partial. False: ids outside of the container are undefined behaviour as the check comes too late; with time steps above 2m/k bodies get faster. Proved: forces of all bodies; deceleration without turning for time steps up to m/k. |
| C160 | Setting up a uniaxial test | Strain_Props | `C160_setup_partial`, `C160_prepared_partial`, `C160_runs_partial`, `C160_blocked`, `C160_speeds`, `C160_time_partial`, `C160_throws_refuted`, `C160_swapped_refuted`, `C160_empty_refuted` | partial. False: after an exception the next step goes on as if the initialization had succeeded; empty ends are undefined behaviour without assertions. Proved: what a successful initialization does; afterwards any number of steps runs without failing. |
| C161 | Straining at the given rate | Strain_Props | `C161_rate_partial`, `C161_ends_partial`, `C161_others_partial`, `C161_ramp_partial`, `C161_ramp_refuted`, `C161_asymmetry_refuted`, `C161_stays_refuted` | partial. False: currentStrainRate is NaN at first, so the whole rate applies at once and initAccelTime is not used; other values of asymmetry strain twice; an end that should stay keeps the velocity it had. Proved: constant rate for any number of steps; linear rise if currentStrainRate is set to 0. |
| C162 | Stopping at a strain | Strain_Props | `C162_stop_partial`, `C162_compression_refuted`, `C162_idle_refuted` | partial. False: in compression the whole strain is imposed in the first step; velocities are not reset, so straining goes on in idle iterations. Proved for tension up to the end. |
| C163 | Reversing at a limit strain | Strain_Props | `C163_turn_partial`, `C163_once_partial`, `C163_overwritten_refuted` | partial. False: the reversed rate is overwritten at the next step and has no effect (C161_rate_partial holds with any limit). Proved: when it is noted, and that this happens once. |
| C164 | Stress on the supports | Strain_Props | `C164_stress_partial`, `C164_tension_partial`, `C164_interval_refuted` | partial. False: interval 0 is undefined behaviour. Proved for all other intervals. |
| C165 | Isotropic compression: size of the cell | Pcell_Props | `C165_sizes_partial`, `C165_goes_on_refuted`, `C165_vanishes_refuted` | partial. False: after the last stress the rates of the cell are not reset, it goes on deforming and may get smaller than any size. Proved for any number of steps until then. |
| C166 | Isotropic compression: one step | Pcell_Props | `C166_step_partial`, `C166_fails_refuted` | partial. False with the default characteristic length if the first body is missing (undefined) or has no bounding box (terminates). Proved for all actions that do not fail; cell with orthogonal edges along the axes. |
| C167 | Isotropic compression: series of stresses | Pcell_Props | `C167_transition_partial`, `C167_unmeasured_refuted`, `C167_unstable_refuted`, `C167_guess_refuted`, `C167_no_stress_refuted` | partial. False: the predicted stress is compared, which for large cells is the goal at once; between updates the unbalanced force is not measured, its initial value passes the test. Proved for stored values. |
| C168 | Triaxial control: limits | Pcell_Props | `C168_works_partial`, `C168_effect_partial`, `C168_limits_partial`, `C168_size_partial`, `C168_small_refuted` | partial. False: the limit is not divided by the size, so that edges longer than one may get too short. Proved: maximum rates; the limit for edges up to one. |
| C169 | Triaxial control: imposed strain | Pcell_Props | `C169_strain_partial`, `C169_leaves_refuted` | partial. False without dynCell: 0.8 times the last rate is added whatever growDamping, so that the cell leaves the goal. Proved: exact in one step without damping and limits. |
| C170 | Triaxial control: predicted stress | Pcell_Props | `C170_guess_partial` | partial. False unless the edge is one: the difference is multiplied by 1 - 1/edge, proved in the theorem; with growDamping 0 and no growth before. |
| C171 | Triaxial control: hook | Pcell_Props | `C171_hook_partial`, `C171_stale_refuted`, `C171_hooked_refuted` | partial. False: between updates the unbalanced force of the last update is used. Proved: strains always, stresses and unbalanced force at updates. |
| C172 | Triaxial control: measured stress and stiffness | Pcell_Props | `C172_love`, `C172_contact`, `C172_stiffness` | proved. All lists of contacts. |
| C173 | Facets: what is precomputed | Shape_Props | `C173_data_partial`, `C173_centre_partial`, `C173_same_partial`, `C173_degenerate_refuted`, `C173_stale_refuted` | partial. False for vertices on a line (NaN, only logged) and after setNewVerticesOfFacet, which does not recompute anything. Proved for all other triples. |
| C174 | Facets and spheres: contacts | Shape_Props | `C174_nearest_partial`, `C174_force_partial`, `C174_shrink_partial`, `C174_off_centre_refuted`, `C174_on_edge_refuted`, `C174_force_refuted`, `C174_shrink_refuted` | partial. False if the origin of the facet is not its incentre, for a center on an edge (NaN), if a contact is asked for, and shrinkFactor is reset by one small facet. Proved for all facets made of vertices, without shrinking. |
| C175 | Facets: bounding boxes | Shape_Props | `C175_box_partial`, `C175_seen_partial` | partial. Boxes are proved in all cells; overlap for scenes that are not periodic (spheres with shifts added), without shrinking. |
| C176 | Boxes: bounding boxes | Shape_Props | `C176_box_partial`, `C176_seen_partial`, `C176_sheared_refuted` | partial. False in sheared cells: an exception. Proved otherwise. |
| C177 | Boxes and spheres: center outside | Shape_Props | `C177_outside` | proved. All sizes, orientations given by unit quaternions. |
| C178 | Boxes and spheres: center inside | Shape_Props | `C178_inside_partial`, `C178_depth_partial`, `C178_shift_refuted` | partial. False for shifted spheres of periodic scenes: the point of contact lacks the shift. Proved: normal and depth always, the point without a shift. |
| C179 | Sizes, strains and porosity reported by the triaxial controller are those of the box between its walls | Triax_Props | `C179_sizes`, `C179_strains`, `C179_between`, `C179_porosity`, `C179_ball_partial`, `C179_particles_partial` | proved. All walls, forces and bodies; positive sizes for logarithms. The volume of a ball is counted with 1.3333333 for 4/3, see C179_ball_partial. |
| C180 | Stresses reported by the triaxial controller are forces over areas | Triax_Props | `C180_stress_partial`, `C180_index_partial`, `C180_index_refuted` | partial. False for wall numbers outside 0..5: memory outside of the array is read. Proved: all stresses and the mean. |
| C181 | Strain control attains the strain rate asked for | Triax_Props | `C181_damping_partial`, `C181_sizes_partial`, `C181_lag_refuted`, `C181_one_wall_refuted` | partial. False with damping (the rate does not stay at its goal, as sizes change) and where only one of two walls is activated (half of the rate). Proved: the effect of each step exactly, and sizes after any number of steps without damping. |
| C182 | Stress control moves walls towards the stress asked for | Triax_Props | `C182_direction_partial`, `C182_prediction_partial`, `C182_stiffness_partial`, `C182_kept_partial`, `C182_past_refuted` | partial. False for walls that were moving: 8/10 of the last translation is kept at the goal, and with damping 1. Proved: direction, amount and stiffness, for walls that were at rest. |
| C183 | Walls controlled in stress obey max_vel | Triax_Props | `C183_bound_partial`, `C183_isotropic_partial`, `C183_exceeded_refuted` | partial. False: 1.35 max_vel after two steps with default damping. Proved: a bound for all histories, isotropy of maxima. |
| C184 | A triaxial controller goes on after saving and loading | Triax_Props | `C184_reload_partial`, `C184_jump_refuted` | partial. False where stiffness is not recounted at the next step, or walls were moving: neither stiffness nor last translation is saved. Proved: otherwise. |
| C185 | Internal compaction makes particles grow towards the stress asked for, within limits | Triax_Props | `C185_direction_partial`, `C185_otherwise_partial`, `C185_volume_partial`, `C185_growth_partial`, `C185_fixed_clump_refuted`, `C185_no_goal_refuted`, `C185_zero_goal_refuted`, `C185_limit_refuted`, `C185_negative_refuted` | partial. False for fixed clumps, no axis in stress control, goal 0, tensile mean stress, and mean stress far below the goal. Proved: direction and limit for compressive goals, volume of free particles. |
| C186 | External work of the triaxial controller is the work of forces on walls | Triax_Props | `C186_work`, `C186_internal` | proved. All modes of control; ids not changed after the first step (C188). |
| C187 | The triaxial controller touches only its walls | Triax_Props | `C187_only_walls` | proved. All worlds in which the six walls exist and differ. |
| C188 | The walls watched are the walls driven | Triax_Props | `C188_ids_partial`, `C188_ids_refuted` | partial. False for ids changed after the first step. Proved: those of the first step are used throughout. |
| C189 | A sphere factory accounts for all it makes | Fact_Props | `C189_accounts`, `C189_speed`, `C189_radii`, `C189_material` | proved. All configurations and histories. vAngle is not used by the code: velocities are exactly along the direction. |
| C190 | A sphere factory stops at its limits | Fact_Props | `C190_number_partial`, `C190_mass_partial`, `C190_done_partial`, `C190_max_mass_refuted` | partial. False for maxMass while maxParticles is positive, as by default. The rest is proved for all histories. |
| C191 | A sphere factory follows the grading curve | Fact_Props | `C191_grading_partial`, `C191_tends_partial`, `C191_safe_partial`, `C191_percent_refuted`, `C191_junk_refuted`, `C191_reload_refuted` | partial. Proved with explicit bounds for strictly increasing curves that end at 1, without reloading. False for curves that do not end at 1 (the first value is not normalized, memory behind the array is read) and after reloading. |
| C192 | New spheres do not overlap | Fact_Props | `C192_overlap_partial`, `C192_negative_refuted` | partial. False for a negative maxAttempt. Obstacles are those of the probe (C196). |
| C193 | New spheres are inside of the region | Fact_Props | `C193_circular_partial`, `C193_boxed_partial`, `C193_boxed_refuted` | partial. CircularFactory across its axis, for spheres not larger than the region; along it, and for BoxFactory, only centers are inside. |
| C194 | A factory that fails to place a sphere stops for good | Fact_Props | `C194_failure_partial`, `C194_silent_refuted` | partial. True with stopIfFailed. silent does not disable the factory. |
| C195 | A step of a sphere factory ends | Fact_Props | `C195_number_partial`, `C195_mass_partial`, `C195_endless_refuted` | partial. With a limit on the number or positive radii and density. Not for radius zero. |
| C196 | The probe of the collider finds what is in a box | Fact_Props | `C196_sound_partial`, `C196_box_partial`, `C196_complete_partial`, `C196_clear_partial`, `C196_moved_refuted` | partial. Complete for bodies that did not move back along x beyond the margin; false otherwise. |
| C197 | The domain limiter deletes what has left, and nothing else | Fact_Props | `C197_limits_partial`, `C197_number_partial`, `C197_nan_refuted`, `C197_member_refuted` | partial. Exact for positions that are numbers and consistent clumps. |
| C198 | The contact of Hertz and Mindlin has the stiffness of the theory | Hertz_Props | `C198_stiffness_partial`, `C198_defined_partial`, `C198_symmetric_partial`, `C198_once`, `C198_flat_refuted` | partial. For two spheres; a flat body (radius 0) given second makes a contact without stiffness. |
| C199 | Damping of the contact of Mindlin is what is configured | Hertz_Props | `C199_conflict_partial`, `C199_forgotten_refuted`, `C199_restitution_partial`, `C199_ratios_partial`, `C199_es_refuted`, `C199_es_alone_refuted` | partial. Exclusive options are rejected at the first attempt only; es is never used and alone is a null pointer. |
| C200 | A contact of Hertz without adhesion only repels | Hertz_Props | `C200_repel`, `C200_hertz`, `C200_hertz_linear`, `C200_apart`, `C200_apart_linear`, `C200_lost`, `C200_lost_linear`, `C200_applied`, `C200_applied_linear` | proved. For both laws, any damping and velocity. |
| C201 | Attraction is limited by adhesion | Hertz_Props | `C201_adhesion_partial`, `C201_adhesion_refuted` | partial. Within twice the adhesion force, within it without damping; false with damping. |
| C202 | The shear force of the laws of Hertz obeys Coulomb friction | Hertz_Props | `C202_coulomb_partial`, `C202_coulomb_linear_partial`, `C202_adhesive_partial`, `C202_tension_refuted`, `C202_viscous_refuted` | partial. The elastic part obeys the limit; with viscous shear force the sum does not; with adhesion tension raises the limit. |
| C203 | Forces and moments of a contact of Hertz balance | Hertz_Props | `C203_balance`, `C203_balance_linear` | proved. For any geometry (Mindlin), for spheres in contact (HertzWithLinearShear and periodic). |
| C204 | Energies of the contact of Mindlin accounted as dissipated never decrease | Hertz_Props | `C204_damping`, `C204_not_asked`, `C204_elastic_partial`, `C204_work_partial`, `C204_friction_partial`, `C204_friction_refuted` | partial. Damping always; friction if the force before is within the limit, false otherwise. |
| C205 | A contact kept while bodies are apart starts anew | Hertz_Props | `C205_linear_partial`, `C205_normal_partial`, `C205_recontact_refuted` | partial. HertzWithLinearShear, and the normal force of Mindlin; the shear force of Mindlin comes back. |
| C206 | A contact of Hertz is elastic without sliding | Hertz_Props | `C206_linear_partial`, `C206_mindlin_partial`, `C206_cycle_refuted` | partial. HertzWithLinearShear with nonLin=0, Mindlin at constant overlap; false if the overlap changes. |
| C207 | The bending moment of Mindlin contacts is limited | Hertz_Props | `C207_bending_partial`, `C207_twisting_partial`, `C207_none_partial`, `C207_bending_refuted` | partial. If the normal force is not zero. |
| C208 | The stiffness reported by contacts of Hertz is the tangent stiffness | Hertz_Props | `C208_tangent_partial`, `C208_energy_partial`, `C208_linear_refuted` | partial. For Mindlin; HertzWithLinearShear reports zero. |
| C209 | Statistics of contacts of Mindlin count present contacts | Hertz_Props | `C209_adhesive_partial`, `C209_mark_partial`, `C209_sliding_partial`, `C209_empty_partial`, `C209_other_refuted`, `C209_stale_refuted`, `C209_flag_refuted` | partial. Counts of marks, which may be out of date or wrong; other contacts are a null pointer. |
| C210 | The law of Mindlin and Deresiewicz resists normal and tangential displacements | Hertz_Props | `C210_normal_partial`, `C210_shear_refuted` | partial. Normal force only; there is no shear force. |
| C211 | Without threads, forces read are the sums of those added | Fser_Props | `C211_sum` | proved.  |
| C212 | Permanent forces count once however often forces are summed (no threads) | Fser_Props | `C212_once_partial`, `C212_times_partial`, `C212_python_refuted` | partial. Only if summed once after the last reset; k times gives k times the permanent value. |
| C213 | Forces read for one body are those read for all (no threads) | Fser_Props | `C213_single_partial`, `C213_single_refuted` | partial. Before summing. |
| C214 | Unsynchronised readings give the quantity asked for (no threads) | Fser_Props | `C214_force_partial`, `C214_torque_refuted` | partial. Forces only; the torque asked for is the force. |
| C215 | Permanent values are those last set (no threads) | Fser_Props | `C215_permanent`, `C215_out_of_range` | proved.  |
| C216 | Builds with and without threads give the same forces | Fser_Props | `C216_agree_partial`, `C216_agree_refuted` | partial. Without permanent values, or if they are summed once. |
| C217 | Additions to summed forces are safe and lasting | Fser_Props | `C217_covered_partial`, `C217_seen_partial`, `C217_first_refuted`, `C217_lost_refuted` | partial. All bodies but that of id 0; forgotten with the next addition. |
| C218 | Importing a mesh of facets makes one node per vertex and one facet per triangle | Pfac_Props | `C218_nodes`, `C218_facets` | proved. Triangles with three different corners, into any scene without connected nodes. |
| C219 | Edges shared by facets are connected once | Pfac_Props | `C219_edges` | proved. As C218; that facets have their three connections is in C218_facets. |
| C220 | Connections and facets move with their nodes | Pfac_Props | `C220_motion_partial`, `C220_motion_refuted` | partial. Imported meshes of any triangles; false for meshes made by hand in which no connection begins at the first node of a facet. |
| C221 | Lists of intersections contain what makes up touching bodies, and nothing else | Pfac_Props | `C221_listed` | proved. All scenes and contacts. |
| C222 | Bodies shared by facets are listed once | Pfac_Props | `C222_once` | proved. Nodes have no contacts (they are never bounded), subdomains are numbered from 1. |
| C223 | A process lists only its own bodies for other workers | Pfac_Props | `C223_own_partial`, `C223_own_refuted` | partial. If facets and connections belong to one process as a whole, which nothing checks. |
| C224 | Erasing remote bodies leaves no facet without its parts | Pfac_Props | `C224_kept_partial`, `C224_kept_refuted` | partial. If facets and connections belong to one process as a whole, which nothing checks. |
| C225 | Splitting and merging restores which bodies are bounded | Pfac_Props | `C225_bounded_partial`, `C225_shapes_partial`, `C225_bounded_refuted` | partial. False for connections of facets of workers, unbounded when the facet is made and bounded after merging. |
| C226 | Damping of a contact is the fraction of critical damping of the materials | Fvis_Props | `C226_damping`, `C226_springs`, `C226_matchmakers`, `C226_kept`, `C226_mixed`, `C226_order` | proved.  |
| C227 | Parameters of a damped contact are numbers | Fvis_Props | `C227_defined_partial`, `C227_defined_refuted` | partial. False for two bodies without mass which are damped. |
| C228 | Without damping it is the frictional contact | Fvis_Props | `C228_same`, `C228_erased` | proved.  |
| C229 | The dashpot resists with its coefficient times velocity | Fvis_Props | `C229_dashpot_partial`, `C229_parameters_partial`, `C229_coefficient_refuted` | partial. The coefficient is larger by the ratio of the sum of radii to the distance. |
| C230 | A contact with damping never attracts | Fvis_Props | `C230_repels_partial`, `C230_approaching_partial`, `C230_pulls_refuted` | partial. False for bodies which separate fast. |
| C231 | Bodies which are apart feel nothing | Fvis_Props | `C231_apart_partial`, `C231_apart_refuted` | partial. False with damping. |
| C232 | Friction is limited by the elastic normal force | Fvis_Props | `C232_friction_partial`, `C232_work_partial`, `C232_friction_refuted` | partial. Friction is relative to the normal force with damping. |
| C233 | Elastic energy of damped contacts is that of springs | Fvis_Props | `C233_energy_partial`, `C233_sum_partial`, `C233_energy_refuted` | partial. False with damping, which is counted as elastic. |
| C234 | Damped contacts balance forces and moments | Fvis_Props | `C234_balance` | proved.  |
| C235 | Inverting the integral of a line | Lint_Props | `C235_slope_partial`, `C235_found_partial`, `C235_level_refuted`, `C235_corner_refuted`, `C235_zero_refuted` | partial. The range is not checked for constant functions; the assertion fails where the line crosses the axis. |
| C236 | The integral of a piecewise-linear function is its area | Lint_Props | `C236_area`, `C236_lengths`, `C236_derivative`, `C236_step` | proved.  |
| C237 | Finding the point with a given area | Lint_Props | `C237_found_partial`, `C237_inverse_partial`, `C237_over_partial`, `C237_end_refuted`, `C237_negative_refuted`, `C237_corner_refuted` | partial. False for the last point, for negative areas and corners on the axis; functions below the axis are not covered. |
| C238 | Finding the point with a given area of a periodic function | Lint_Props | `C238_inverse_partial`, `C238_total_partial`, `C238_zero_refuted`, `C238_negative_refuted`, `C238_corner_refuted` | partial. For functions above the axis. |
| C239 | Sanitizing a function extends it by constants | Lint_Props | `C239_sanitized`, `C239_again`, `C239_empty` | proved.  |
| C240 | The grid collider finds all pairs that meet | Flat_Props | `C240_complete_partial`, `C240_missed_refuted` | partial. False unless the lower corner of the grid has equal coordinates. |
| C241 | An interaction found by the grid collider survives the step | Flat_Props | `C241_known_partial`, `C241_cells_partial`, `C241_erased_partial`, `C241_erased_refuted` | partial. A new interaction of spheres sharing exactly one cell is erased in the same step. |
| C242 | The grid collider is safe for any positions | Flat_Props | `C242_errors` | proved.  |
| C243 | The grid collider need not run until bodies have moved by the verlet distance | Flat_Props | `C243_quiet_partial`, `C243_shortened_refuted` | partial. False if the time step shrinks between the motion and the collider; for grids with the corner on the diagonal. |
| C244 | The grid collider neither loses nor doubles interactions | Flat_Props | `C244_list` | proved.  |
| C245 | The grid collider does not join distant spheres | Flat_Props | `C245_near_partial`, `C245_far_refuted` | partial. False unless the lower corner of the grid has equal coordinates. |
| C246 | A mortar layer has symmetric, positive properties | Mort_Props | `C246_order_partial`, `C246_mixed_partial`, `C246_stiffness_partial`, `C246_wall_refuted` | partial. False for bodies without radius: the stiffness is negative. Same labels must mean same materials. |
| C247 | Cohesion only before the threshold iteration | Mort_Props | `C247_iteration_partial`, `C247_threshold_refuted` | partial. False: the threshold only makes an error message, contacts remain cohesive. |
| C248 | Mortar stays within its envelope | Mort_Props | `C248_law`, `C248_history`, `C248_convex`, `C248_unload`, `C248_shear` | proved.  |
| C249 | Mortar obeys the balance of momentum | Mort_Props | `C249_point`, `C249_periodic`, `C249_silent` | proved.  |
| C250 | Common parameters are between those of the materials | Lud_Props | `C250_mean_partial`, `C250_parameters_partial`, `C250_zero_refuted` | partial. False if one of the values is zero. |
| C251 | Valid materials make contacts | Lud_Props | `C251_accepted_partial`, `C251_rejected_partial`, `C251_rejected_refuted`, `C251_null_refuted` | partial. False if k1 of one material is zero, and if neither body is a sphere. |
| C252 | First loading is on the lines of the law | Lud_Props | `C252_virgin_partial`, `C252_limit_partial`, `C252_jump_refuted`, `C252_facet_refuted` | partial. False if the plastic limit is passed in one step, and for a sphere and another shape, where the first force is zero. |
| C253 | Forces stay between the lines of loading and adhesion | Lud_Props | `C253_history_partial`, `C253_stiffness_partial`, `C253_unload_partial`, `C253_pull_partial`, `C253_hold_refuted` | partial. The limit of attraction only holds while bodies move apart. |
| C254 | Unloading depends on the largest overlap only | Lud_Props | `C254_reversible_partial`, `C254_steps_refuted` | partial. False: the stiffness used for the plastic overlap is that of the step before. |
| C255 | Friction and balance of contacts of Luding | Lud_Props | `C255_law_partial`, `C255_balance_partial`, `C255_erased_partial`, `C255_viscous_refuted` | partial. The viscous tangential force is not limited. |
| C256 | Force of a wire depends on the largest elongation only | Wire_Props | `C256_history`, `C256_largest` | proved.  |
| C257 | A wire holds up to the last point of its curve | Wire_Props | `C257_breaks_partial`, `C257_kept_partial`, `C257_last_partial`, `C257_last_refuted` | partial. False just at the last point, where there is no force. |
| C258 | A wire only pulls, within its curve | Wire_Props | `C258_tension_partial`, `C258_within_partial`, `C258_factor_partial`, `C258_stiffening_refuted` | partial. False for curves which get stiffer than unloading. |
| C259 | The curve of a wire is that of its material | Wire_Props | `C259_table_partial`, `C259_shift_partial`, `C259_straight_partial`, `C259_added_partial`, `C259_same_partial`, `C259_other_partial`, `C259_twist_refuted` | partial. False for double twists of type 0: points may be out of order. |
| C260 | Wires do not depend on the order of bodies | Wire_Props | `C260_order_partial`, `C260_order_refuted`, `C260_label_refuted` | partial. False for materials of the same diameter or label. |
| C261 | Accepted materials make wires | Wire_Props | `C261_accepted_partial`, `C261_area_partial`, `C261_strain_refuted`, `C261_twist_refuted`, `C261_empty_refuted`, `C261_stale_refuted` | partial. False: zero strain, empty tables and changed diameters are not noticed. |
| C262 | Wires obey the balance of momentum | Wire_Props | `C262_point`, `C262_periodic`, `C262_direction` | proved.  |
| C263 | Inelastic contacts remember the largest deformation | Inel_Props | `C263_pulled`, `C263_compressed` | proved.  |
| C264 | The force of an inelastic contact has no jumps | Inel_Props | `C264_elastic_partial`, `C264_jump_refuted` | partial. False once tension was plastic: compression starts with the force of its creep curve. |
| C265 | Plastic forces do not exceed elastic ones | Inel_Props | `C265_pulled_partial`, `C265_compressed_partial`, `C265_stiff_refuted` | partial. False in compression when tension is stiffer: creep is a fraction of the stiffness of tension. |
| C266 | Broken inelastic contacts stay broken | Inel_Props | `C266_breaks_partial`, `C266_only_partial`, `C266_forever_partial`, `C266_silent_partial`, `C266_erased_partial`, `C266_leaves_partial`, `C266_overlap_refuted` | partial. False after plastic compression: erased while the spheres overlap. |
| C267 | Shear of inelastic contacts is limited | Inel_Props | `C267_kept_partial`, `C267_slips_partial`, `C267_breaks_partial`, `C267_amplified_refuted`, `C267_adheres_refuted` | partial. False: breaking may multiply the force, and cohesion broken by twist or bending leaves the adhesion. |
| C268 | Contacts without cohesion have no moments | Inel_Props | `C268_torn_partial`, `C268_fails_partial`, `C268_elastic_partial`, `C268_sound_partial`, `C268_bending_refuted` | partial. False for the bending moment when shear or twist broke the cohesion. |
| C269 | Twist is the same in both senses | Inel_Props | `C269_odd`, `C269_elastic`, `C269_plastic`, `C269_breaks` | proved. Plastic twist while the moment and the twist have the same sense. |
| C270 | Inelastic contacts are made of two materials in either order | Inel_Props | `C270_sym_partial`, `C270_stiff_partial`, `C270_limits_partial`, `C270_default_refuted` | partial. False for materials with moduli zero, the default: 0/0. |
| C271 | Inelastic contacts obey the balance of momentum | Inel_Props | `C271_balance`, `C271_applied` | proved.  |
| C272 | Slaves of a parallel engine are what was assigned | Pare_Props | `C272_round_trip_partial`, `C272_assigned_partial`, `C272_rejected_partial`, `C272_lost_refuted` | partial. False after an error: the former slaves are cleared first. |
| C273 | Engines run in parallel give the same result as one after another | Pare_Props | `C273_schedule_partial`, `C273_schedule_refuted` | partial. Proved if engines of different groups may be exchanged; false otherwise. |
| C274 | A parallel engine runs each of its engines once | Pare_Props | `C274_once`, `C274_prefix`, `C274_completes`, `C274_inactive` | proved.  |
| C275 | All classes get a python class, after their bases | Regi_Props | `C275_registered_partial`, `C275_order_partial`, `C275_complete_partial`, `C275_left_refuted` | partial. At most a hundred rounds: proved if each class is within a hundred bases of a registered one; false beyond. |
| C276 | isChildClassOf tells whether a class derives from another | Regi_Props | `C276_child` | proved. Hierarchies without cycles, as those of C++. |
| C277 | Questions about classes change nothing | Regi_Props | `C277_questions_partial`, `C277_plugins_refuted` | partial. Bases are unchanged; unknown names that are asked about are added to the list. |
| C278 | childClasses lists the classes deriving from a class | Regi_Props | `C278_child_classes` | proved.  |
| C279 | The database of classes agrees with the classes | Regi_Props | `C279_database_partial`, `C279_ladder_refuted`, `C279_unfactored_refuted` | partial. Proved if bases of plugins are plugins or known to the code; false otherwise. |
| C280 | All common vertices of facets are found | Topo_Props | `C280_found_partial`, `C280_placed_partial`, `C280_axis_refuted`, `C280_turned_refuted` | partial. False for axes longer than one and for rotated facets. Code compiled only with FACET_TOPO. |
| C281 | Vertices that touch are one vertex | Topo_Props | `C281_vertices_partial`, `C281_chain_refuted` | partial. Proved if touching is transitive; false otherwise. |
| C282 | All common edges of facets are found | Topo_Props | `C282_search`, `C282_count` | proved. Count for facets with three different vertices. |
| C283 | Edges of facets know the neighbour | Topo_Props | `C283_edges_partial`, `C283_marked_partial`, `C283_own_refuted`, `C283_always_own_refuted`, `C283_flat_refuted` | partial. False: the number of the facet itself is stored. |
| C284 | Recorders lose no row | Reco_Props | `C284_appended_partial`, `C284_kept_open_partial`, `C284_numbered_partial`, `C284_emptied_refuted`, `C284_one_file_refuted` | partial. False with truncation for recorders that close the file, and with numbers of steps for those that do not. |
| C285 | Recorded forces and torques are those of the bodies | Reco_Props | `C285_force_partial`, `C285_torque_partial`, `C285_sum_partial`, `C285_reversed_refuted`, `C285_pusher_refuted` | partial. False: moments of forces have the wrong sign. |
| C286 | Elastic contacts have the harmonic average of stiffnesses | Bubb_Props | `C286_spheres_partial`, `C286_flat_partial`, `C286_other_partial`, `C286_shear_partial`, `C286_order_partial`, `C286_other_refuted` | partial. False for geometries other than spheres. |
| C287 | The force of bubbles grows smoothly with the overlap | Bubb_Props | `C287_curve_partial`, `C287_deep_partial`, `C287_falling_refuted`, `C287_singular_refuted` | partial. Proved for fractions below one. |
| C288 | The force of bubbles is a solution or an error | Bubb_Props | `C288_shallow_partial`, `C288_result_partial`, `C288_steady_partial`, `C288_vertical_refuted` | partial. The distance to the solution itself is not bounded; false where the tangent is vertical. |
| C289 | Contacts of bubbles survive saving | Bubb_Props | `C289_removed_partial`, `C289_fresh_partial`, `C289_set_partial`, `C289_deep_partial`, `C289_shallow_partial`, `C289_new_partial`, `C289_balance_partial`, `C289_reload_refuted` | partial. False after loading. |
| C290 | Points given to an average are kept | Wavg_Props | `C290_data`, `C290_cell`, `C290_clips` | proved. Cells are those around the points for points within the grid; polygons are given as predicates. |
| C291 | An average takes all points within its radius | Wavg_Props | `C291_once_partial`, `C291_row_partial`, `C291_sums_partial`, `C291_row_refuted`, `C291_outside_refuted` | partial. False across rows of cells and out of the grid. |
| C292 | Averages follow their parameters | Wavg_Props | `C292_between_partial`, `C292_weight_partial`, `C292_area_partial`, `C292_none_refuted`, `C292_stale_refuted`, `C292_area_refuted` | partial. False after parameters change or with a threshold other than 3. |

## Print Assumptions

Output of `Print Assumptions` for every theorem of the `*_Props.v` files, grouped.

* Closed under the global context (303 theorems): C01_append_returns_length, C01_body_ids_stable_partial, C01_body_ids_stable_refuted, C02_addToClump_effect, C02_clump_effect, C02_clumps_consistent_partial, C02_clumps_consistent_refuted, C02_erase_effect, C02_release_effect, C03_erase_ends_interactions, C04_insert_effect, C04_one_per_pair, C04_request_erase_effect, C05_containers_agree, C06_no_trace_after_clear_partial, C06_recycled_ids_partial, C06_recycled_ids_refuted, C07_purge_exact, C08_eraseNonReal_partial, C08_eraseNonReal_refuted, C09_reload_exact_partial, C09_reload_exact_refuted, C101_callbacks, C101_contact, C101_each, C101_frame, C101_given, C101_schedule, C102_fresh, C102_since, C103_real_partial, C103_shape_refuted, C104_kept_partial, C104_unseen_refuted, C105_ignored_refuted, C105_inactive_partial, C105_reset_refuted, C106_complete_partial, C106_missing_refuted, C106_order_refuted, C10_reading_is_sum_over_threads, C10_reading_order_exact, C10_schedule_independent, C110_complete, C110_exact_partial, C111_erased_refuted, C111_no_bound_refuted, C111_safe_partial, C112_rules_partial, C112_rules_refuted, C115_activated_partial, C115_interval_refuted, C115_not_resized_refuted, C119_erased_refuted, C119_merge_partial, C119_no_box_refuted, C11_add_makes_reads_raise, C11_sync_idempotent, C11_unsynced_read_refused, C120_empty_refuted, C125_operator_refuted, C126_equal_lengths, C127_argument_refuted, C127_clash_refuted, C127_history_partial, C127_row_partial, C127_sequence_partial, C128_reset_partial, C128_reset_refuted, C129_data_refuted, C129_empty_refuted, C129_image_partial, C129_order_refuted, C129_reverse_refuted, C12_permanent_forces_persist_partial, C12_permanent_forces_persist_refuted, C130_digits_refuted, C130_headers_refuted, C130_no_data_refuted, C130_space_refuted, C130_text_partial, C13_resetAll_clears_everything, C13_reset_clears_step_sums_only, C141_clumps, C141_has, C141_partition, C145_replaces_partial, C149_again_refuted, C149_flag_partial, C149_later, C149_off, C149_reset, C149_saved_refuted, C14_every_overlap_is_found_partial, C14_every_overlap_is_found_refuted, C14_recycled_id_refuted, C152_nothing_refuted, C154_behind_refuted, C154_each, C154_reads_partial, C15_new_pairs_are_justified, C160_blocked, C16_lists_are_sorted, C176_sheared_refuted, C17_only_separated_pairs_are_purged, C17_purged_pairs_return, C180_index_partial, C18_bodies_inside_their_boxes_are_found, C198_once, C19_mixed_mode, C19_substeps_equal_step, C19_substeps_equal_steps, C209_adhesive_partial, C20_dead_engines_do_not_run, C20_empty_engine_list_refuted, C20_engine_change_at_boundary_partial, C20_engine_change_mid_step_refuted, C211_sum, C212_once_partial, C212_python_refuted, C212_times_partial, C213_single_partial, C213_single_refuted, C214_force_partial, C214_torque_refuted, C215_out_of_range, C215_permanent, C216_agree_partial, C216_agree_refuted, C217_covered_partial, C217_first_refuted, C217_lost_refuted, C217_seen_partial, C218_facets, C218_nodes, C219_edges, C21_run_n_is_exactly_n_steps, C21_run_never_blocks, C220_motion_partial, C220_motion_refuted, C221_listed, C222_once, C223_own_partial, C223_own_refuted, C224_kept_partial, C224_kept_refuted, C225_bounded_partial, C225_bounded_refuted, C225_shapes_partial, C226_kept, C22_background_steps_exclusive_partial, C22_steps_never_overlap_partial, C22_steps_never_overlap_refuted, C239_empty, C23_states_survive_transmission, C24_states_with_bounds_partial, C24_states_with_bounds_refuted, C251_null_refuted, C25_no_deadlock_partial, C25_no_deadlock_refuted, C26_states_reach_the_right_bodies, C272_assigned_partial, C272_lost_refuted, C272_rejected_partial, C272_round_trip_partial, C273_schedule_partial, C273_schedule_refuted, C274_completes, C274_inactive, C274_once, C274_prefix, C275_complete_partial, C275_left_refuted, C275_order_partial, C275_registered_partial, C276_child, C277_plugins_refuted, C277_questions_partial, C278_child_classes, C279_database_partial, C279_ladder_refuted, C279_unfactored_refuted, C27_master_forces_current_partial, C27_master_forces_current_refuted, C281_chain_refuted, C281_vertices_partial, C282_count, C282_search, C283_always_own_refuted, C283_edges_partial, C283_flat_refuted, C283_marked_partial, C283_own_refuted, C284_appended_partial, C284_emptied_refuted, C284_kept_open_partial, C284_numbered_partial, C284_one_file_refuted, C28_merge_collects_from_owner, C290_clips, C29_every_body_owned, C30_pairs_are_examined_by_their_owners, C30_subdomains_meet_foreign_bodies, C31_duplicates_ignored, C31_nearest_functor, C31_nearest_unique, C32_ambiguity_reported_refuted, C32_answer_stable_partial, C32_independent_of_history_refuted, C32_nearest_pair_partial, C33_contribution_lost_refuted, C33_energies_exact_partial, C33_kept_engines_refuted, C33_names_mixed_refuted, C34_at_most_nDo_partial, C34_at_most_nDo_refuted, C34_never_within_period, C34_starts_again, C34_whichever_comes_first, C35_axis_letter, C35_dynamic, C35_from_vectors, C35_get_after_set, C35_letter_blocks_its_own, C35_set_after_get, C36_bad_key_raises, C36_keys, C36_last_assigned_partial, C36_other_keys_unchanged_refuted, C41_double_refuted, C42_may_collide, C43_unsynced_read_after_sync_partial, C43_unsynced_read_agrees_partial, C43_unsynced_read_agrees_refuted, C44_exception_keeps_clock, C44_retry_after_exception, C44_substep_exception_retries_item, C45_run_after_pause_partial, C45_run_after_pause_refuted, C46_reload_while_running_partial, C46_reload_while_running_refuted, C47_reappended_body_partial, C47_reappended_body_refuted, C48_wrong_length_partial, C48_wrong_length_rejected_refuted, C49_subdomain_box, C50_exception_ends_run, C51_split_with_erased_bodies_refuted, C52_fewer_bodies_refuted, C52_no_read_outside_partial, C53_parallel_sort_stays_inside_partial, C53_parallel_sort_stays_inside_refuted, C54_collider_runs_in_time_partial, C54_replaced_integrator_refuted, C54_scripted_move_refuted, C54_turning_body_refuted, C55_interaction_partial, C55_interaction_uses_new_list_refuted, C55_new_functor_for_old_pair_refuted, C55_shape_partial, C55_shape_uses_new_list_refuted, C56_arguments_fit, C56_interaction_order, C56_lookup_ends, C57_exact_schedule_partial, C57_first_run_partial, C57_first_run_refuted, C57_nDo_runs_refuted, C57_no_initial_run_refuted, C58_few_names_partial, C58_no_overread_refuted, C58_one_thread_partial, C67_mask_meaning, C74_once, C83_finds, C83_image, C83_large_refuted, C83_never_fails, C83_sound, C84_lists, C85_added_refuted, C85_complete_partial, C85_restarts_refuted, C86_new_partial, C86_stale_refuted, C87_empty_undefined, C87_reset_partial, C87_switch_undefined, C88_scratch, C89_first, C89_next, C90_first, C90_next, C91_ends_partial, C91_enough, C92_assigned_partial, C94_axis_partial, C94_separated_partial, C95_clump_split_refuted, C96_bounds_partial, C96_grow_refuted, C99_long_refuted, C99_thin_refuted
* Axioms `ClassicalDedekindReals.sig_forall_dec` (7 theorems): C140_lists_partial, C145_carried_refuted, C145_failed_refuted, C155_forces, C159_undefined_refuted, C259_straight_partial, C280_placed_partial
* Axioms `ClassicalDedekindReals.sig_forall_dec`, `FunctionalExtensionality.functional_extensionality_dep` (212 theorems): C107_corner_refuted, C107_once_partial, C108_index, C108_large_refuted, C108_memory_partial, C109_again_partial, C109_first_refuted, C120_ends_partial, C120_jump_refuted, C120_value_partial, C120_wrap_partial, C136_clumps_refuted, C137_fill_partial, C137_not_periodic_refuted, C137_small_refuted, C138_order_refuted, C138_psd_partial, C139_box, C140_iteration_refuted, C140_lost_refuted, C140_stale_refuted, C142_everywhere_partial, C142_trial_partial, C145_cell_refuted, C145_exact_refuted, C145_flag_refuted, C145_reads, C145_round_partial, C150_energy_partial, C150_value, C151_corners_partial, C151_hull_partial, C151_lost_refuted, C151_undefined, C152_area, C152_enlarged, C152_hull_partial, C152_mirrored, C152_moved, C152_reversed, C152_rotated, C155_balance_partial, C155_balance_refuted, C155_clump_partial, C155_work, C158_force, C159_engine_partial, C159_faster_refuted, C159_slower_partial, C160_empty_refuted, C160_prepared_partial, C160_runs_partial, C160_setup_partial, C160_speeds, C160_swapped_refuted, C160_throws_refuted, C160_time_partial, C161_asymmetry_refuted, C161_ends_partial, C161_others_partial, C161_ramp_partial, C161_ramp_refuted, C161_rate_partial, C161_stays_refuted, C162_compression_refuted, C162_idle_refuted, C162_stop_partial, C163_once_partial, C163_overwritten_refuted, C163_turn_partial, C164_interval_refuted, C164_stress_partial, C164_tension_partial, C166_fails_refuted, C166_step_partial, C167_guess_refuted, C167_no_stress_refuted, C167_transition_partial, C167_unmeasured_refuted, C167_unstable_refuted, C172_contact, C172_love, C172_stiffness, C175_box_partial, C176_box_partial, C180_index_refuted, C183_isotropic_partial, C185_limit_refuted, C185_negative_refuted, C185_no_goal_refuted, C185_zero_goal_refuted, C193_boxed_refuted, C196_box_partial, C196_complete_partial, C196_moved_refuted, C196_sound_partial, C197_number_partial, C209_empty_partial, C209_other_refuted, C209_sliding_partial, C233_sum_partial, C236_area, C236_derivative, C236_lengths, C236_step, C239_again, C239_sanitized, C240_complete_partial, C240_missed_refuted, C241_cells_partial, C241_erased_partial, C241_erased_refuted, C241_known_partial, C242_errors, C244_list, C245_far_refuted, C248_convex, C248_shear, C248_unload, C250_mean_partial, C250_zero_refuted, C252_jump_refuted, C252_limit_partial, C252_virgin_partial, C253_history_partial, C253_hold_refuted, C253_pull_partial, C253_stiffness_partial, C253_unload_partial, C254_reversible_partial, C254_steps_refuted, C256_history, C256_largest, C257_breaks_partial, C257_kept_partial, C257_last_partial, C257_last_refuted, C258_factor_partial, C258_stiffening_refuted, C258_tension_partial, C258_within_partial, C259_other_partial, C259_same_partial, C259_shift_partial, C260_label_refuted, C261_accepted_partial, C262_direction, C262_periodic, C262_point, C263_compressed, C263_pulled, C264_elastic_partial, C264_flags_partial, C264_jump_refuted, C265_compressed_partial, C265_pulled_partial, C265_stiff_refuted, C266_breaks_partial, C266_erased_partial, C266_forever_partial, C266_only_partial, C266_overlap_refuted, C269_breaks, C269_elastic, C269_odd, C269_plastic, C270_default_refuted, C270_limits_partial, C270_stiff_partial, C270_sym_partial, C280_axis_refuted, C280_found_partial, C280_turned_refuted, C285_force_partial, C285_pusher_refuted, C285_reversed_refuted, C285_sum_partial, C285_torque_partial, C286_flat_partial, C286_order_partial, C286_other_partial, C286_other_refuted, C286_shear_partial, C286_spheres_partial, C289_balance_partial, C290_cell, C290_data, C291_once_partial, C291_outside_refuted, C291_row_partial, C291_row_refuted, C292_between_partial, C292_none_refuted, C38_forces_collected, C41_far_refuted, C41_period_partial, C41_wrap_partial, C60_overlap_inertia_refuted, C61_kinetic_partial, C61_tracked_partial, C61_tracked_refuted, C63_damping_power_partial, C66_angular_momentum_partial, C66_momentum_partial, C66_momentum_refuted, C68_nearest_unique, C72_magnitude_partial, C76_fallback, C76_first_match, C76_symmetric, C97_manual_partial, C99_automatic_partial
* Axioms `ClassicalDedekindReals.sig_forall_dec`, `ClassicalDedekindReals.sig_not_dec`, `FunctionalExtensionality.functional_extensionality_dep` (340 theorems): C100_distance_partial, C100_last_partial, C100_nearest_partial, C100_remote_partial, C100_remote_refuted, C107_touching_partial, C113_aligned_partial, C113_default_refuted, C113_frictionless_partial, C113_half_partial, C113_unloaded_refuted, C114_bounds_partial, C114_negative_refuted, C115_defined_partial, C115_null_refuted, C115_unassigned_refuted, C116_ball_partial, C116_ellipsoid_refuted, C116_notch_refuted, C116_outside_partial, C116_symmetric_difference_refuted, C117_box_partial, C117_ellipsoid_refuted, C118_flat_cylinder_refuted, C118_left_handed_refuted, C118_points_partial, C121_helix_partial, C121_interpolated_partial, C121_rotation_partial, C121_spin_partial, C121_translation_partial, C121_twice_refuted, C122_circle_partial, C122_phase_refuted, C123_bounded_partial, C123_drift_refuted, C123_harmonic_partial, C123_rotation_partial, C124_inclined_refuted, C124_measured_partial, C124_sign_refuted, C124_speed_partial, C125_frame_partial, C125_order_partial, C125_sum_partial, C136_repeat_partial, C139_axis_refuted, C139_density, C139_flag_refuted, C139_moves_partial, C139_overlap, C139_places, C142_box_partial, C142_existing_refuted, C142_flat_refuted, C142_image_refuted, C142_periodic_partial, C143_copies_partial, C143_far_refuted, C143_flag_refuted, C143_numbers_refuted, C144_behind_refuted, C144_empty_refuted, C144_returns_partial, C146_balance, C146_forces, C146_torques, C147_amplified_refuted, C147_forces_partial, C147_moments, C147_negative_refuted, C147_tension_refuted, C148_creep_refuted, C148_engine_refuted, C148_history, C148_kept_refuted, C148_lost_partial, C148_no_tension, C149_asked, C149_existing, C149_init_refuted, C149_new, C149_weakest, C150_energy_refuted, C150_stiffness, C150_symmetric, C153_defined, C153_large_refuted, C153_nothing, C153_section_partial, C156_forces_partial, C156_others_partial, C156_total_partial, C156_undefined_refuted, C157_axial_nan_refuted, C157_axial_others, C157_axial_partial, C157_radial_others, C157_radial_partial, C158_interpolated_partial, C158_wrap_refuted, C159_laws, C165_goes_on_refuted, C165_sizes_partial, C165_vanishes_refuted, C173_centre_partial, C173_data_partial, C173_degenerate_refuted, C173_same_partial, C173_stale_refuted, C174_force_partial, C174_force_refuted, C174_nearest_partial, C174_off_centre_refuted, C174_on_edge_refuted, C174_shrink_partial, C174_shrink_refuted, C175_seen_partial, C176_seen_partial, C177_outside, C178_depth_partial, C178_inside_partial, C178_shift_refuted, C179_ball_partial, C179_particles_partial, C185_fixed_clump_refuted, C185_growth_partial, C189_accounts, C189_material, C189_radii, C189_speed, C190_done_partial, C190_mass_partial, C190_max_mass_refuted, C190_number_partial, C191_grading_partial, C191_junk_refuted, C191_percent_refuted, C191_reload_refuted, C191_safe_partial, C191_tends_partial, C192_negative_refuted, C192_overlap_partial, C193_boxed_partial, C193_circular_partial, C194_failure_partial, C194_silent_refuted, C195_endless_refuted, C195_mass_partial, C195_number_partial, C196_clear_partial, C197_limits_partial, C197_member_refuted, C197_nan_refuted, C200_apart, C200_apart_linear, C200_applied, C200_applied_linear, C200_lost, C200_lost_linear, C200_repel, C201_adhesion_partial, C201_adhesion_refuted, C202_adhesive_partial, C202_coulomb_linear_partial, C202_coulomb_partial, C202_tension_refuted, C202_viscous_refuted, C203_balance, C203_balance_linear, C204_damping, C204_elastic_partial, C204_friction_partial, C204_friction_refuted, C204_not_asked, C204_work_partial, C205_linear_partial, C205_normal_partial, C205_recontact_refuted, C206_cycle_refuted, C206_linear_partial, C206_mindlin_partial, C207_bending_partial, C207_bending_refuted, C207_none_partial, C207_twisting_partial, C209_flag_refuted, C209_mark_partial, C209_stale_refuted, C210_shear_refuted, C226_damping, C226_matchmakers, C226_mixed, C226_order, C226_springs, C227_defined_partial, C227_defined_refuted, C228_erased, C228_same, C229_coefficient_refuted, C229_dashpot_partial, C229_parameters_partial, C230_approaching_partial, C230_pulls_refuted, C230_repels_partial, C231_apart_partial, C231_apart_refuted, C232_friction_partial, C232_friction_refuted, C232_work_partial, C233_energy_partial, C233_energy_refuted, C234_balance, C235_corner_refuted, C235_found_partial, C235_level_refuted, C235_slope_partial, C235_zero_refuted, C237_corner_refuted, C237_end_refuted, C237_found_partial, C237_inverse_partial, C237_negative_refuted, C237_over_partial, C238_corner_refuted, C238_inverse_partial, C238_negative_refuted, C238_total_partial, C238_zero_refuted, C243_quiet_partial, C243_shortened_refuted, C245_near_partial, C246_mixed_partial, C246_order_partial, C246_stiffness_partial, C246_wall_refuted, C247_iteration_partial, C247_threshold_refuted, C248_history, C248_law, C249_periodic, C249_point, C249_silent, C250_parameters_partial, C251_accepted_partial, C251_rejected_partial, C251_rejected_refuted, C252_facet_refuted, C255_balance_partial, C255_erased_partial, C255_law_partial, C255_viscous_refuted, C261_area_partial, C261_stale_refuted, C266_leaves_partial, C266_silent_partial, C267_adheres_refuted, C267_amplified_refuted, C267_breaks_partial, C267_kept_partial, C267_slips_partial, C268_bending_refuted, C268_elastic_partial, C268_fails_partial, C268_sound_partial, C268_torn_partial, C271_applied, C271_balance, C291_sums_partial, C292_area_partial, C292_area_refuted, C292_stale_refuted, C292_weight_partial, C29_one_process, C37_rigid, C37_round_trip, C39_blocked_axis, C39_blocked_periodic, C39_free_axis, C39_position, C40_action_reaction_refuted, C40_contact_point_partial, C40_scene_partial, C40_spheres_partial, C40_touching, C40_ways_agree, C59_clump_inertia_partial, C59_left_handed_refuted, C59_overlap_partial, C59_single, C59_turned_member_refuted, C60_density_scales_overlap_partial, C60_density_scales_partial, C62_unit_orientations, C63_damping_partial, C63_damping_refuted, C64_angular_velocity_partial, C64_angular_velocity_refuted, C65_order_irrelevant, C66_angular_momentum_refuted, C67_mask_partial, C67_mask_refuted, C68_coulomb, C68_detection, C68_reset_iff_open, C69_plastic_work_partial, C69_tracing_neutral, C69_tracked_dissipation_refuted, C70_rigid_motion, C71_no_ratcheting_partial, C71_no_ratcheting_refuted, C72_carried_along_refuted, C72_tangent_partial, C73_angular_momentum, C73_conservation, C73_momentum, C74_series_partial, C74_series_refuted, C75_order_of_bodies, C75_same_forces, C77_deformation, C77_increment, C77_velGrad, C78_box, C78_period, C78_shear, C78_unique, C78_wrap, C79_shift_velocity, C80_changing_dt_refuted, C80_homogeneous_partial, C81_sphere_box_partial, C81_sphere_box_refuted, C82_new_reference_partial, C82_new_reference_refuted, C97_missing_refuted, C98_everywhere_partial, C98_find_partial, C98_halves_refuted, C98_large_refuted
* Axioms `ClassicalDedekindReals.sig_forall_dec`, `ClassicalDedekindReals.sig_not_dec`, `Classical_Prop.classic`, `FunctionalExtensionality.functional_extensionality_dep` (103 theorems): C131_apart_partial, C131_image_refuted, C131_orthogonal_partial, C131_periodic_partial, C131_skewed_refuted, C132_box_partial, C132_cell_partial, C132_large_refuted, C133_count_partial, C133_count_refuted, C133_kept_partial, C133_lost_refuted, C134_ignored_refuted, C134_process_partial, C134_second_refuted, C135_cumm_refuted, C135_defined_partial, C135_mean_partial, C135_number_partial, C135_psd_partial, C139_back_refuted, C155_clump_refuted, C168_effect_partial, C168_limits_partial, C168_size_partial, C168_small_refuted, C168_works_partial, C169_leaves_refuted, C169_strain_partial, C170_guess_partial, C171_hook_partial, C171_hooked_refuted, C171_stale_refuted, C179_between, C179_porosity, C179_sizes, C179_strains, C180_stress_partial, C181_damping_partial, C181_lag_refuted, C181_one_wall_refuted, C181_sizes_partial, C182_direction_partial, C182_kept_partial, C182_past_refuted, C182_prediction_partial, C182_stiffness_partial, C183_bound_partial, C183_exceeded_refuted, C184_jump_refuted, C184_reload_partial, C185_direction_partial, C185_otherwise_partial, C185_volume_partial, C186_internal, C186_work, C187_only_walls, C188_ids_partial, C188_ids_refuted, C198_defined_partial, C198_flat_refuted, C198_stiffness_partial, C198_symmetric_partial, C199_conflict_partial, C199_es_alone_refuted, C199_es_refuted, C199_forgotten_refuted, C199_ratios_partial, C199_restitution_partial, C200_hertz, C200_hertz_linear, C208_energy_partial, C208_linear_refuted, C208_tangent_partial, C210_normal_partial, C259_added_partial, C259_table_partial, C259_twist_refuted, C260_order_partial, C260_order_refuted, C261_empty_refuted, C261_strain_refuted, C261_twist_refuted, C287_curve_partial, C287_deep_partial, C287_falling_refuted, C287_singular_refuted, C288_result_partial, C288_shallow_partial, C288_steady_partial, C288_vertical_refuted, C289_deep_partial, C289_fresh_partial, C289_new_partial, C289_reload_refuted, C289_removed_partial, C289_set_partial, C289_shallow_partial, C91_few_refuted, C93_balance_partial, C93_factor_two_partial, C93_levels_refuted, C93_nothing_refuted

## Trusted base

* Coq 8.16.1 kernel (including `vm_compute`, used for concrete witnesses).
* The statement of every theorem in `*_Props.v` and the definitions it uses from
  `*_Model.v` and `*_Spec.v`.
* The axioms listed above, all from Coq's standard library: those of the real
  numbers (`ClassicalDedekindReals.sig_forall_dec`, `ClassicalDedekindReals.sig_not_dec`,
  `FunctionalExtensionality.functional_extensionality_dep`, and `Classical_Prop.classic` where
  listed).  No axiom is added here, no kernel check is switched off, no functor or module type
  is defined.
* A tool that lists the axioms of all loaded libraries also shows fields of opaque modules of the
  standard library: `Coq.Reals.Rdefinitions.RbaseSymbolsImpl.*` and `RinvImpl.*` (definitions
  of the real numbers sealed by a module type), and `Coq.ssr.ssrunder.Under_rel.*`
  (loaded with std++).  They are defined in those modules, not assumed.
* The reading of the source: nothing is executed, so the tie between code and
  model is the citation on each definition.

## What is not modelled

* Rounding, NaN and infinities of `double`: numbers are exact (Z or R, stated per file),
  except where a file says otherwise.  Integers (`int`, `long`, `size_t`) are unbounded
  unless a file says otherwise.
* Rendering, GUI, file formats (boost serialization), the python GIL, failures of memory
  allocation, weak memory models (threads interleave at the granularity given in each file).
* Contact laws other than the linear elastic-frictional one between spheres (and its wall geometry),
  fluid coupling, FEM, capillarity, grids and facets except where cited, packing generators.
* Periodic boundary conditions in the collider; the domain decomposition's choice of
  subdomains (any assignment is allowed in the model).
