{"id": "C01", "title": "Body ids are stable positions", "statement": "After any sequence of O.bodies operations (append, insert at a given id, erase, clump, release), O.bodies[i] is either None or a body whose .id is i; append returns the previous length of the container, so an id handed out by append was never handed out before, and the length never shrinks except by clear().", "quantifier": "all finite sequences of body-container operations from the empty container, all arguments inside the documented range", "why_tests_cant": "the claim is about every interleaving of insertions and erasures, including erase of clumps with members", "anchors": ["core/BodyContainer.cpp: insert, insertAtId, erase", "core/BodyContainer.hpp", "py/wrapper/yadeWrapper.cpp: pyBodyContainer"]}
{"id": "C02", "title": "Clump membership is consistent", "statement": "At any time every existing body is exactly one of standalone, clump, clump member; a member's clumpId names an existing clump whose member list contains it, and every id in a clump's member list is an existing body whose clumpId is that clump.", "quantifier": "all histories of append, clump, addToClump, releaseFromClump, erase (with and without member erasure)", "why_tests_cant": "depends on every history; a unit test only tries a few fixed clump edits", "anchors": ["core/Clump.cpp: add, del", "core/BodyContainer.cpp: erase", "py/wrapper/yadeWrapper.cpp: pyBodyContainer::addToClump, releaseFromClump, clump"]}
{"id": "C03", "title": "Erasing a body ends its interactions", "statement": "After O.bodies.erase(i) no real interaction refers to body i, all other bodies and interactions keep their state, and after the next purge pass the interaction container holds no interaction with i among those that were registered with i.", "quantifier": "all scenes reached by any such history and all ids; histories in which freed ids are not reused (C06), erased bodies are not put back (C47) and clump bodies themselves get no interaction", "why_tests_cant": "needs every contact topology", "anchors": ["core/BodyContainer.cpp: erase", "core/InteractionContainer.cpp: requestErase, conditionalyEraseNonReal, erase"]}
{"id": "C04", "title": "At most one interaction per pair, found from both ends", "statement": "For bodies i,j the container holds at most one interaction between them and lookup by (i,j) and by (j,i) returns the same object, or nothing in both cases.", "quantifier": "all histories of insert/erase/purge and all pairs; histories in which freed ids are not reused (C06), erased bodies are not put back (C47) and clump bodies themselves get no interaction", "why_tests_cant": "the invariant relates three redundant structures (linear array, two per-body maps) after arbitrary histories", "anchors": ["core/InteractionContainer.cpp: insert, erase, find, found"]}
{"id": "C05", "title": "Interaction container structures agree", "statement": "The linear array, the per-body maps and the back-references agree after any history: an interaction is reachable through iteration iff it is reachable by lookup from both bodies, its stored position is where it is, and len(O.interactions) is the number of such pairs.", "quantifier": "all histories of body insertion, interaction insertion, erasure, purge and body erasure, ids not recycled", "why_tests_cant": "swap-with-last deletion must be checked against every position and history", "anchors": ["core/InteractionContainer.cpp: insert, erase, clear", "core/InteractionContainer.hpp"]}
{"id": "C06", "title": "Interaction container structures agree when body ids are recycled", "statement": "Even when a new body is put at an id freed by erase, the container structures of C05 agree.", "quantifier": "histories that include insertion at a freed id", "why_tests_cant": "needs a specific history of erase, purge and re-insertion", "anchors": ["core/InteractionContainer.cpp: erase", "core/BodyContainer.cpp: insertAtId"]}
{"id": "C07", "title": "Purge removes exactly the obsolete potential contacts, whatever the number of threads", "statement": "conditionalyEraseNonReal removes exactly the interactions that are not real and whose bodies' boxes are apart, keeps all others unchanged, and the surviving set is the same for the sequential code and for the parallel code with any number of threads.", "quantifier": "all containers reached by histories in which freed ids are not reused (C06), erased bodies are not put back (C47) and clump bodies themselves get no interaction, all predicates 'boxes apart', all thread counts and all static partitions", "why_tests_cant": "deletion while iterating with swap-with-last; thread counts cannot be enumerated", "anchors": ["core/InteractionContainer.hpp: conditionalyEraseNonReal"]}
{"id": "C08", "title": "O.interactions.eraseNonReal leaves only real interactions", "statement": "After eraseNonReal no non-real interaction remains and all real ones are kept.", "quantifier": "all container contents and orders", "why_tests_cant": "erases while iterating; depends on the order of elements", "anchors": ["core/InteractionContainer.cpp: eraseNonReal"]}
{"id": "C09", "title": "Saving and reloading keeps exactly the real interactions", "statement": "Saving then loading a scene restores exactly the interactions having geometry or physics, with the same ids; interactions whose bodies are gone are dropped and only those.", "quantifier": "all scenes, all subsets of missing bodies", "why_tests_cant": "loop exit on first missing body depends on order", "anchors": ["core/InteractionContainer.cpp: preSave, postLoad__calledFromScene"]}
{"id": "C10", "title": "Forces are the sum over all threads", "statement": "After synchronisation the force (torque) read for a body is the sum of everything added for it by any thread since the last reset plus the permanent force the container holds for it, independent of which thread added what and in which order; bodies beyond the allocated range read zero.", "quantifier": "all numbers of threads, all sequences of additions by all threads, all ids", "why_tests_cant": "the schedule of additions is unbounded", "anchors": ["core/ForceContainerParallel.cpp: addForce, addTorque, sync, getForce", "core/ForceContainer.hpp"]}
{"id": "C11", "title": "Reading forces before synchronisation is refused and synchronising twice changes nothing", "statement": "getForce/getTorque raise after an addition until sync has been called; a second sync leaves all readings unchanged.", "quantifier": "all histories", "why_tests_cant": "needs all orders of add/sync/reset", "anchors": ["core/ForceContainerParallel.cpp: getForce, sync, reset"]}
{"id": "C12", "title": "Permanent forces persist", "statement": "A permanent force set on a body is included in every later reading until it is overwritten or all forces are reset, whatever is done to other bodies.", "quantifier": "all histories of setPermForce/add/sync/reset on all ids", "why_tests_cant": "loss depends on the relative order and values of ids", "anchors": ["core/ForceContainerParallel.cpp: setPermForce, resizePerm, ensureSize"]}
{"id": "C13", "title": "reset clears the per-step sums only", "statement": "After reset every non-permanent force, torque, move and rot reads zero; permanent ones survive unless resetAll is requested.", "quantifier": "all states", "why_tests_cant": "all histories and thread counts", "anchors": ["core/ForceContainerParallel.cpp: reset"]}
{"id": "C14", "title": "Collider finds every overlapping pair", "statement": "Whenever the collider has just run, every pair of bodies that both have bounding boxes, are allowed to collide and whose boxes overlap strictly on all three axes has an interaction in the container, whatever the earlier positions and runs.", "quantifier": "all histories of moves and collider runs, any number of bodies", "why_tests_cant": "sweep-and-prune correctness depends on the whole history of previous orders", "anchors": ["pkg/common/InsertionSortCollider.cpp: action, insertionSort, handleBoundInversion, spatialOverlap"]}
{"id": "C15", "title": "Collider creates only justified pairs", "statement": "Every interaction newly created by a collider run is between two distinct existing bodies that have boxes, may collide, and whose boxes overlap (touching included).", "quantifier": "all histories", "why_tests_cant": "all positions", "anchors": ["pkg/common/InsertionSortCollider.cpp: insertionSort, handleBoundInversion, spatialOverlap", "pkg/common/Collider.cpp: mayCollide"]}
{"id": "C16", "title": "Bound lists are sorted permutations", "statement": "After every run each axis list contains exactly two entries for every body id and is ordered by coordinate.", "quantifier": "all histories", "why_tests_cant": "all orders", "anchors": ["pkg/common/InsertionSortCollider.cpp: insertionSort, insertionSortParallel, action"]}
{"id": "C17", "title": "Purged pairs are re-detected", "statement": "A potential contact purged because the boxes separated is recreated by the run at which the boxes overlap strictly again, and a real contact is never removed by the collider.", "quantifier": "all histories of separation and approach", "why_tests_cant": "history property", "anchors": ["pkg/common/InsertionSortCollider.cpp: action", "core/InteractionContainer.cpp"]}
{"id": "C18", "title": "Skipping the collider is safe while bodies stay inside their enlarged boxes", "statement": "If every body's true extent stays inside its recorded enlarged box, any two bodies whose true extents overlap strictly have an interaction although the collider does not run at that step.", "quantifier": "all numbers of steps between runs, all motions within the box", "why_tests_cant": "unbounded number of steps", "anchors": ["pkg/common/InsertionSortCollider.cpp: isActivated, action", "pkg/common/Dispatching.cpp: BoundDispatcher::processBody", "pkg/dem/NewtonIntegrator.cpp: saveMaximaDisplacement"]}
{"id": "C19", "title": "Sub-stepping equals stepping", "statement": "With O.subStepping, advancing through prologue, every engine and epilogue has the same effect as one ordinary O.step() (same engines run in the same order, iter +1, time +dt).", "quantifier": "all engine lists and states, any number of steps", "why_tests_cant": "engine lists are arbitrary and engines arbitrary functions", "anchors": ["core/Scene.cpp: moveToNextTimeStep"]}
{"id": "C20", "title": "Engine list changes take effect at a step boundary", "statement": "Assigning O.engines from inside a running step never changes which engines run in that step; the new list runs from the next step on; dead engines never run.", "quantifier": "all engine lists, all points of assignment", "why_tests_cant": "assignment may occur at any engine of any step", "anchors": ["core/Scene.cpp: moveToNextTimeStep", "py/wrapper/yadeWrapper.cpp: engines_get, engines_set"]}
{"id": "C21", "title": "O.run(n) does exactly n steps", "statement": "O.run(n,wait=True) on an idle simulation with n>0 advances the iteration counter by exactly n unless an engine stops or throws.", "quantifier": "all n, all start iterations", "why_tests_cant": "unbounded n", "anchors": ["py/wrapper/yadeWrapper.cpp: pyOmega::run", "core/SimulationFlow.cpp: singleAction", "core/ThreadRunner.cpp: run"]}
{"id": "C22", "title": "Two steps never overlap", "statement": "No two simulation steps are ever executing at the same time, whatever the interleaving of run, pause, step and the background thread.", "quantifier": "all schedules of the caller and background threads", "why_tests_cant": "race", "anchors": ["core/ThreadRunner.cpp", "py/wrapper/yadeWrapper.cpp: pyOmega::run, pause, step"]}
{"id": "C23", "title": "Body states survive transmission between workers", "statement": "Packing the states of a list of bodies and unpacking them for the same id list restores position, velocity, angular velocity and orientation of each of them exactly and changes nothing else; the message has 13 numbers per body.", "quantifier": "all lists of existing ids (any length, no duplicates), all values", "why_tests_cant": "all list lengths and values", "anchors": ["core/Subdomain.cpp: getStateValuesFromIds, setStateValuesFromIds"]}
{"id": "C24", "title": "States with bounds survive transmission", "statement": "Packing states with bounds and unpacking them restores the state and bounds of every body in the list.", "quantifier": "all lists of ids", "why_tests_cant": "includes bodies without bound", "anchors": ["core/Subdomain.cpp: getStateBoundsValuesFromIds, setStateBoundsFromIds"]}
{"id": "C25", "title": "Splitting and exchanging never deadlock", "statement": "For any number of workers the message exchange during scene splitting and at each step completes (every send has a receive and vice versa, no cyclic wait) provided overlap lists are symmetric.", "quantifier": "all numbers of workers, all symmetric overlap relations, all schedules", "why_tests_cant": "schedules and communication graphs are unbounded", "anchors": ["py/mpy.py: splitScene, updateDomainBounds, sendRecvStates", "core/Subdomain.cpp: mpiSendStates, mpiIrecvStates, mpiWaitReceived"]}
{"id": "C26", "title": "Received states are applied to the right bodies", "statement": "After an exchange every worker's copy of a remote body that it mirrors has the owner's current state, and no other body is modified.", "quantifier": "all numbers of workers, all mirror lists", "why_tests_cant": "alignment across arbitrary lists", "anchors": ["py/mpy.py: sendRecvStates, splitScene", "core/Subdomain.cpp: setStateValuesFromBuffer"]}
{"id": "C27", "title": "Master forces are the current ones", "statement": "At each step the force the master adds on a body of its own is the sum of the forces computed in that same step by the workers that see this body.", "quantifier": "all numbers of workers and steps, all sequences of split/merge", "why_tests_cant": "stale-message scenarios need particular histories", "anchors": ["py/mpy.py: isendRecvForces, receiveForces, mergeScene, splitScene"]}
{"id": "C28", "title": "Merging collects every body from its owner", "statement": "After mergeScene the master holds for each body the state computed by the worker owning it.", "quantifier": "all partitions of bodies into subdomains", "why_tests_cant": "all partitions", "anchors": ["py/mpy.py: mergeScene"]}
{"id": "C29", "title": "Each body is integrated by exactly one process", "statement": "In a split scene the set of bodies moved by the integrator of each process partitions the movable bodies.", "quantifier": "all partitions and process counts", "why_tests_cant": "all partitions", "anchors": ["pkg/dem/NewtonIntegrator.cpp: action"]}
{"id": "C30", "title": "Every cross-domain pair is examined by the owning side(s)", "statement": "Two ordinary bodies may collide in some process iff the process owns at least one of them and the usual mask/clump rules allow it; a pair owned by a process is never refused there because of subdomains.", "quantifier": "all pairs, all partitions", "why_tests_cant": "all combinations of flags", "anchors": ["pkg/common/Collider.cpp: mayCollide"]}
{"id": "C31", "title": "One-argument dispatch picks the nearest ancestor", "statement": "The functor chosen for an object is the one registered for its class or else for its nearest registered ancestor, independent of which objects were dispatched before.", "quantifier": "all class hierarchies, registrations and lookup histories", "why_tests_cant": "the cache changes with every lookup", "anchors": ["lib/multimethods/DynLibDispatcher.hpp: locateMultivirtualFunctor1D, add1DEntry"]}
{"id": "C32", "title": "Two-argument dispatch is independent of lookup history", "statement": "The functor (and argument swap) chosen for a pair of objects depends only on the registered functors, not on previous lookups; ambiguous pairs always raise.", "quantifier": "all class hierarchies, registrations and lookup histories", "why_tests_cant": "cache pollution needs a particular history", "anchors": ["lib/multimethods/DynLibDispatcher.hpp: locateMultivirtualFunctor2D, add2DEntry"]}
{"id": "C33", "title": "Energy totals are independent of threads", "statement": "O.energy values equal the sum of all contributions added to a name since creation or reset by any thread; total is the sum over names; lookups by name never mix two names.", "quantifier": "all schedules of add/set/reset over all names and threads", "why_tests_cant": "unbounded schedules", "anchors": ["core/EnergyTracker.hpp", "lib/base/openmp-accu.hpp: OpenMPArrayAccumulator"]}
{"id": "C34", "title": "Periodic engines respect their period and count", "statement": "A PeriodicEngine with only iterPeriod=n>0 and nDo=m>=0 runs at most m times and never twice within n iterations of monotonically increasing iteration counter.", "quantifier": "all call sequences", "why_tests_cant": "unbounded call sequences", "anchors": ["pkg/common/PeriodicEngines.hpp: isActivated"]}
{"id": "C35", "title": "blockedDOFs string round trip", "statement": "Setting blockedDOFs from any string and reading it back gives the blocked letters in canonical order; setting what was read changes nothing; each letter blocks exactly its own degree of freedom.", "quantifier": "all strings", "why_tests_cant": "all strings", "anchors": ["core/State.cpp: blockedDOFs_vec_get, blockedDOFs_vec_set"]}
{"id": "C36", "title": "Tags behave as a map", "statement": "O.tags[k]=v then O.tags[k] returns v and leaves other keys unchanged.", "quantifier": "all keys and values and existing tag lists", "why_tests_cant": "all strings", "anchors": ["py/wrapper/yadeWrapper.cpp: pyTags"]}
{"id": "C37", "title": "Clump members move rigidly with the clump", "statement": "Recording member positions relative to the clump then regenerating them gives the same positions and orientations; when the clump moves, distances between members are preserved.", "quantifier": "all positions, unit orientations", "why_tests_cant": "all reals", "anchors": ["core/Clump.cpp: moveMembers, updateProperties"]}
{"id": "C38", "title": "Clump collects forces and torques of members exactly", "statement": "The force on the clump is the sum of the member forces and the torque the sum of member torques plus the moments of member forces about the clump centre.", "quantifier": "all member lists", "why_tests_cant": "all lists", "anchors": ["core/Clump.cpp: addForceTorqueFromMembers"]}
{"id": "C39", "title": "Blocked degrees of freedom are not accelerated", "statement": "For each blocked axis the integrator leaves the velocity component unchanged by forces; unblocked axes follow force/mass.", "quantifier": "all forces, masses, masks", "why_tests_cant": "all values", "anchors": ["pkg/dem/NewtonIntegrator.cpp: computeAccel, computeAngAccel"]}
{"id": "C40", "title": "Contact forces obey action and reaction", "statement": "Each law application adds opposite forces to both bodies and torques such that total force and total moment about any point are zero.", "quantifier": "all contact points, forces, positions", "why_tests_cant": "all values", "anchors": ["pkg/common/Dispatching.hpp: LawFunctor::applyForceAtContactPoint"]}
{"id": "C41", "title": "Wrapping into the periodic cell", "statement": "wrapNum returns a value in [0,size) that differs from the input by period times size, period being the integer returned; wrapping twice equals wrapping once.", "quantifier": "all reals, all positive sizes", "why_tests_cant": "all reals", "anchors": ["core/Cell.hpp: wrapNum, wrapPt"]}
{"id": "C42", "title": "Group masks", "statement": "mayCollide is symmetric in its two bodies, refuses bodies sharing no mask bit, refuses bodies of the same clump, and refuses clumps themselves.", "quantifier": "all bodies", "why_tests_cant": "all masks", "anchors": ["pkg/common/Collider.cpp: mayCollide", "core/Body.hpp: maskCompatible"]}
{"id": "C43", "title": "Unsynchronised force reads agree with synchronised ones", "statement": "O.forces.f(id) and t(id), which read without synchronising, return for every existing body the value a synchronised read would return, without changing anything.", "quantifier": "all histories, all ids", "why_tests_cant": "depends on how far each internal array has grown", "anchors": ["core/ForceContainerParallel.cpp: getForceSingle, getTorqueSingle", "py/wrapper/yadeWrapper.cpp: pyForceContainer::force_get"]}
{"id": "C44", "title": "An exception in an engine does not corrupt the step", "statement": "If an engine raises during a step, iteration number and time are unchanged; the next ordinary step runs all engines again from the first, without updating the cell a second time; in sub-stepping mode the failed item is retried.", "quantifier": "all engine lists, all engines, all points of failure", "why_tests_cant": "all failure points", "anchors": ["core/Scene.cpp: moveToNextTimeStep"]}
{"id": "C45", "title": "O.run(n) right after O.pause() makes n steps", "statement": "After O.pause() has returned, O.run(n,wait=True) performs exactly n steps.", "quantifier": "all interleavings of the caller and background threads", "why_tests_cant": "needs a specific interleaving", "anchors": ["core/ThreadRunner.cpp: run, call", "core/SimulationFlow.cpp: singleAction", "py/wrapper/yadeWrapper.cpp: run, pause"]}
{"id": "C46", "title": "Loading or resetting while running is safe", "statement": "O.load, O.reset and the like, which destroy the background runner, never leave a thread that uses the destroyed runner.", "quantifier": "all interleavings", "why_tests_cant": "needs a specific interleaving", "anchors": ["core/ThreadRunner.cpp: ~ThreadRunner", "core/Omega.cpp: stop"]}
{"id": "C47", "title": "A body erased and appended again interacts normally", "statement": "A body object removed with O.bodies.erase and appended again under its new id takes part in interactions like any other body: the container structures of C05 still agree.", "quantifier": "all histories in which erased body objects are appended again", "why_tests_cant": "depends on the contacts the body had when it was erased", "anchors": ["core/BodyContainer.cpp: erase, insert", "core/InteractionContainer.cpp: insert, erase"]}
{"id": "C48", "title": "A state message of the wrong length is rejected", "statement": "Applying a received message whose length does not match the list of bodies leaves all bodies untouched and reports the mismatch.", "quantifier": "all lists of bodies and all messages", "why_tests_cant": "all length mismatches", "anchors": ["core/Subdomain.cpp: setStateValuesFromIds, setStateBoundsValuesFromIds"]}
{"id": "C49", "title": "The box of a subdomain is the union of the boxes of its bodies", "statement": "The bounding box of a subdomain contains the bound of each of its bodies, is the smallest such box, and does not depend on the order in which the bodies are listed; bodies without bound are ignored.", "quantifier": "all lists of bodies and bounds", "why_tests_cant": "all lists and orders", "anchors": ["core/Subdomain.cpp: setMinMax"]}
{"id": "C50", "title": "An exception in a background step ends the run", "statement": "When a step made by the background thread raises, no further step is made until new steps are asked for, O.running becomes False and O.wait returns, whatever the interleaving with the caller.", "quantifier": "all histories of commands before, all interleavings after", "why_tests_cant": "schedules are unbounded", "anchors": ["core/ThreadRunner.cpp: run, call", "core/SimulationFlow.cpp: singleAction"]}
{"id": "C51", "title": "Distributing a scene with erased bodies works", "statement": "Splitting a scene over processes works whatever bodies were erased before: no process raises an error.", "quantifier": "all scenes, all numbers of workers", "why_tests_cant": "all patterns of erased ids", "anchors": ["py/mpy.py: splitScene"]}
{"id": "C52", "title": "Removing bodies does not break contact detection", "statement": "After any change of the set of bodies (adding, erasing, clearing and filling again) the next run of the collider reads only memory it owns and brings its lists up to date.", "quantifier": "all histories of body changes and collider runs", "why_tests_cant": "depends on the sizes at the previous run", "anchors": ["pkg/common/InsertionSortCollider.cpp: action"]}
{"id": "C53", "title": "Parallel sorting stays inside its lists", "statement": "The parallel insertion sort reads and writes only entries of the list it sorts, for any number of threads and bodies, and leaves it sorted.", "quantifier": "all thread counts, list sizes and contents", "why_tests_cant": "depends on sizes and thread counts", "anchors": ["pkg/common/InsertionSortCollider.cpp: insertionSortParallel"]}
{"id": "C54", "title": "The collider runs before a body leaves its box", "statement": "After the collider's turn in every step, whether it decided to run or to skip, each body with a bounding box is inside its box and no two bodies in contact that may collide lack an interaction.", "quantifier": "all histories of steps, body insertions, motions and box enlargements", "why_tests_cant": "needs unbounded histories; a skipped run shows up only as a missing contact later", "anchors": ["pkg/common/InsertionSortCollider.cpp: isActivated, action", "pkg/dem/NewtonIntegrator.cpp: saveMaximaDisplacement", "pkg/common/Dispatching.cpp: BoundDispatcher::processBody"]}
{"id": "C55", "title": "A changed functor list takes effect for existing bodies and interactions", "statement": "After the list of functors of a dispatcher has been replaced, every body's bound and every interaction's geometry is computed by a functor of the new list, and pairs for which a functor was added are handled.", "quantifier": "all class hierarchies, old and new lists, lookup histories and bodies or interactions used before", "why_tests_cant": "needs a history of runs with list changes in between; the old functor usually behaves alike", "anchors": ["pkg/common/Dispatching.cpp: BoundDispatcher::processBody", "pkg/common/InteractionLoop.cpp: action", "core/Interaction.hpp: functorCache", "core/Dispatcher.hpp: functors_set"]}
{"id": "C56", "title": "Functors receive the arguments they expect", "statement": "Whatever was dispatched before, the functor selected for a pair of objects is called with objects of the classes it was written for, in the order it expects (exchanging the arguments if necessary), and every lookup terminates.", "quantifier": "all class hierarchies, lists of functors and lookup histories", "why_tests_cant": "a wrong swap in one polluted cell needs a particular history", "anchors": ["lib/multimethods/DynLibDispatcher.hpp: add2DEntry, locateMultivirtualFunctor2D", "pkg/common/InteractionLoop.cpp: action"]}
{"id": "C57", "title": "A periodic engine keeps its announced schedule", "statement": "A periodic engine with iterPeriod=n called in every step runs for the first time n steps after it was first called (at once with initRun, at firstIterRun if set), then every n steps, nDo times in total.", "quantifier": "all periods, limits, start steps and numbers of steps", "why_tests_cant": "depends on the step in which the engine is added and on every counter value", "anchors": ["pkg/common/PeriodicEngines.hpp: isActivated"]}
{"id": "C58", "title": "Accumulators stay inside their memory", "statement": "Adding names to O.energy, in any number and with any number of threads, never reads or writes outside the memory allocated for the accumulated values.", "quantifier": "all numbers of threads and names, all sequences of calls", "why_tests_cant": "depends on the number of names in relation to the size of a cache line; the wrong read is usually invisible", "anchors": ["lib/base/openmp-accu.hpp: OpenMPArrayAccumulator::resize", "core/EnergyTracker.hpp: findId"]}
{"id": "C59", "title": "A clump has the mass and inertia of its members", "statement": "Mass, centre and inertia tensor (in global axes) of a clump are those of the rigid assembly of its members.", "quantifier": "all lists of members, positions, orientations, masses and principal moments", "why_tests_cant": "all reals; wrong axes are invisible for symmetric examples", "anchors": ["core/Clump.cpp: updateProperties, inertiaTensorTranslate, inertiaTensorRotate"]}
{"id": "C60", "title": "Clump properties scale with density", "statement": "Multiplying the densities of all members by a factor multiplies mass and inertia of the clump by it and leaves centre, axes and relative positions unchanged.", "quantifier": "all lists of members (overlapping or not), all factors", "why_tests_cant": "all reals", "anchors": ["core/Clump.cpp: updateProperties"]}
{"id": "C61", "title": "Kinetic energy reported is that of the bodies", "statement": "utils.kineticEnergy() and O.energy['kinetic'] equal the sum over bodies of translational energy plus half angVel*(inertia in global axes)*angVel.", "quantifier": "all bodies, orientations, inertias, velocities", "why_tests_cant": "all values", "anchors": ["pkg/dem/NewtonIntegrator.cpp: updateEnergy", "pkg/dem/Shop_01.cpp: kineticEnergy"]}
{"id": "C62", "title": "Orientations stay normalized", "statement": "After any number of steps the orientation of each body is a unit quaternion.", "quantifier": "all histories of steps, forces, time steps, imposed displacements, clumps", "why_tests_cant": "unbounded number of steps", "anchors": ["pkg/dem/NewtonIntegrator.cpp: leapfrogSphericalRotate, leapfrogAsphericalRotate"]}
{"id": "C63", "title": "Numerical damping never adds kinetic energy", "statement": "A damped body is not faster after a step than the same body without damping.", "quantifier": "all forces, velocities, damping coefficients in [0,1]", "why_tests_cant": "all values", "anchors": ["pkg/dem/NewtonIntegrator.cpp: cundallDamp2nd"]}
{"id": "C64", "title": "Angular velocity agrees with angular momentum", "statement": "After a step of the aspherical integrator the angular velocity is inertia^-1 * angular momentum, turned into global axes.", "quantifier": "all inertias, orientations, angular momenta, time steps", "why_tests_cant": "all values", "anchors": ["pkg/dem/NewtonIntegrator.cpp: leapfrogAsphericalRotate"]}
{"id": "C65", "title": "Motion does not depend on the order of bodies", "statement": "The integrator gives the same states in whatever order threads treat the bodies, clumps and members.", "quantifier": "all orders, all consistent scenes", "why_tests_cant": "all schedules", "anchors": ["pkg/dem/NewtonIntegrator.cpp: action"]}
{"id": "C66", "title": "Momentum reported is that of the bodies", "statement": "utils.momentum() and utils.angularMomentum() equal the totals over the bodies, each counted once.", "quantifier": "all scenes", "why_tests_cant": "all values", "anchors": ["pkg/dem/Shop_01.cpp: momentum, angularMomentum"]}
{"id": "C67", "title": "Bodies outside of the integrator's mask do not move", "statement": "A body whose groupMask is not compatible with NewtonIntegrator.mask keeps position and orientation.", "quantifier": "all masks, forces, velocities", "why_tests_cant": "all values", "anchors": ["pkg/dem/NewtonIntegrator.cpp: leapfrogTranslate, leapfrogSphericalRotate, leapfrogAsphericalRotate"]}
{"id": "C68", "title": "Contact forces are repulsive and obey friction", "statement": "A contact of two spheres exists once they touch; its normal force is kn times the overlap along the line of centres and never attractive; its shear force is the force nearest to the elastic trial force within the friction limit tan(phi)*|normal force|; a contact that opens is reset, or has no force if neverErase is set.", "quantifier": "all positions, radii, stiffnesses, friction angles, earlier shear forces", "why_tests_cant": "all reals", "anchors": ["pkg/dem/ElasticContactLaw.cpp: Law2_ScGeom_FrictPhys_CundallStrack::go", "pkg/dem/Ig2_Sphere_Sphere_ScGeom.cpp: go"]}
{"id": "C69", "title": "Energy traced at contacts", "statement": "Tracing energies never changes forces; the plastic work counted per step is not negative and balances with the elastic energies; with O.trackEnergy on, sliding adds to O.energy['plastDissip'].", "quantifier": "all settings, contacts and forces", "why_tests_cant": "all combinations of flags and all values", "anchors": ["pkg/dem/ElasticContactLaw.cpp: Law2_ScGeom_FrictPhys_CundallStrack::go"]}
{"id": "C70", "title": "Rigid motion causes no shear", "statement": "If two spheres in contact move like parts of one rigid body (any translation and rotation, also across the periodic boundary), the contact gets no shear displacement, whether avoidGranularRatcheting is set or not.", "quantifier": "all positions, radii, rigid motions, shifts, time steps", "why_tests_cant": "all reals", "anchors": ["pkg/dem/ScGeom.cpp: getIncidentVel, precompute"]}
{"id": "C71", "title": "Closed cycles leave no shear displacement", "statement": "Moving a sphere to and fro along the line of centres and turning it forth and back leaves no total shear displacement of the contact.", "quantifier": "all sequences of distances, approach velocities and angular velocities, of any length", "why_tests_cant": "unbounded sequences of steps", "anchors": ["pkg/dem/ScGeom.cpp: getIncidentVel"]}
{"id": "C72", "title": "The shear force follows the contact", "statement": "When the contact normal turns, the shear force is turned with it: it stays tangential and keeps its magnitude.", "quantifier": "all normals, angular velocities, shear forces", "why_tests_cant": "all reals", "anchors": ["pkg/dem/ScGeom.cpp: rotate, precompute"]}
{"id": "C73", "title": "Momentum is conserved", "statement": "Over a step in which only contacts act, the total momentum and the total angular momentum about any point of all bodies and clumps do not change; with other forces they change by time step times total force, and total moment.", "quantifier": "all scenes of free bodies and clumps, all contacts, positions, velocities, time steps", "why_tests_cant": "all scenes; depends on all engines of a step together", "anchors": ["pkg/common/InteractionLoop.cpp: action", "pkg/dem/NewtonIntegrator.cpp: action", "core/Clump.hpp: addForceTorqueFromMembers"]}
{"id": "C74", "title": "Stiffness of a contact", "statement": "A new contact gets the stiffness of two springs in series, the smaller of both friction angles and no force; an existing contact keeps its parameters.", "quantifier": "all materials and radii", "why_tests_cant": "all reals", "anchors": ["pkg/dem/FrictPhys.cpp: Ip2_FrictMat_FrictMat_FrictPhys::go"]}
{"id": "C75", "title": "The order of bodies in an interaction does not matter", "statement": "Exchanging the two bodies of an interaction (with its state mirrored) gives the mirrored result and the same force and torque on each body.", "quantifier": "all interactions, bodies, states, periodic shifts", "why_tests_cant": "all reals and states", "anchors": ["pkg/dem/Ig2_Sphere_Sphere_ScGeom.cpp: go", "pkg/dem/FrictPhys.cpp: go", "pkg/dem/ElasticContactLaw.cpp: go", "core/Interaction.cpp: swapOrder"]}
{"id": "C76", "title": "MatchMaker looks up pairs", "statement": "A MatchMaker gives the value of the first of its matches that has both material ids in either order, and the chosen fallback of the two values if there is none; the order of arguments does not matter.", "quantifier": "all lists of matches, ids, values, algorithms", "why_tests_cant": "all lists", "anchors": ["pkg/common/MatchMaker.cpp: operator(), postLoad"]}
{"id": "C77", "title": "Deformation of the periodic cell accumulates", "statement": "Starting from any cell, after any sequence of steps and assignments of O.cell.velGrad (with any time steps) that does not raise an exception, O.cell.hSize = O.cell.trsf times the reference shape, the reference shape O.cell.hSize0 is unchanged, and O.cell.volume = det(trsf) times the reference volume; each step adds dt*velGrad*hSize. An assigned velGrad is used from the next integration of motion on, the last assignment counts, and assigning zero stops the deformation.", "quantifier": "all cells, sequences of steps, time steps and velocity gradients", "why_tests_cant": "histories of any length with real values", "anchors": ["core/Cell.cpp: integrateAndUpdate", "core/Cell.hpp: setVelGrad, getHSize0, getVolume", "pkg/dem/NewtonIntegrator.cpp: action"]}
{"id": "C78", "title": "Wrapping points of a sheared cell", "statement": "O.cell.wrap(p) is a point inside the (sheared) cell that differs from p by a whole number of base vectors; all images of a point are wrapped to the same point, points inside are left alone, and the cell coordinates returned with the point are the number of base vectors by which it was moved. shearPt and unshearPt are inverse to each other.", "quantifier": "all reachable cells of any shape, all points", "why_tests_cant": "real values, all shapes", "anchors": ["core/Cell.hpp: wrapShearedPt, wrapPt, shearPt, unshearPt", "core/Cell.cpp: integrateAndUpdate"]}
{"id": "C79", "title": "Velocity of periodic images", "statement": "The shift velocity applied to contacts across the periodic boundary is the velocity of the image: within one update of the cell, the shift of position changes by dt times the shift velocity.", "quantifier": "all cells, velocity gradients, time steps, cell distances", "why_tests_cant": "all real values", "anchors": ["core/Cell.hpp: intrShiftPos, intrShiftVel", "core/Cell.cpp: integrateAndUpdate"]}
{"id": "C80", "title": "Bodies follow homogeneous deformation of the cell", "statement": "With the default homoDeform, a body at rest on which no force has an effect moves with the cell: its coordinates with respect to the base vectors stay the same after any history of velocity gradients.", "quantifier": "all cells, bodies, sequences of velocity gradients and time steps", "why_tests_cant": "histories of any length with real values", "anchors": ["pkg/dem/NewtonIntegrator.cpp: action, leapfrogTranslate", "core/Cell.cpp: integrateAndUpdate", "core/Scene.cpp: moveToNextTimeStep"]}
{"id": "C81", "title": "Boxes of spheres in a sheared cell", "statement": "The bounding box computed for a sphere, in unsheared coordinates, contains the whole sphere whatever the shape of the cell.", "quantifier": "all reachable cells, positions, radii and enlargement factors of at least 1", "why_tests_cant": "all shapes of the cell", "anchors": ["pkg/common/Bo1_Aabb.cpp: Bo1_Sphere_Aabb::go"]}
{"id": "C82", "title": "Assigning the shape of the cell makes it the reference", "statement": "After setBox or an assignment of hSize, trsf is identity and the reference shape of further deformation is the assigned shape, as documented in the header.", "quantifier": "all cells and shapes", "why_tests_cant": "all histories before the assignment", "anchors": ["core/Cell.hpp: setHSize, setBox"]}
{"id": "C83", "title": "Periodic overlap test is exact and reports the right image", "statement": "For two boxes not larger than half the cell, the collider's overlap test never fails, says yes if the boxes touch in some periodic image, says yes only if they touch up to the tolerance in the image it reports, and reports the only image if the boxes together are smaller than the cell. A box larger than half the cell raises an exception, as documented.", "quantifier": "all boxes, anywhere in space, all cell sizes and tolerances", "why_tests_cant": "boxes arbitrarily many cells apart, all three axes, boundary cases", "anchors": ["pkg/common/InsertionSortCollider.cpp: spatialOverlapPeri"]}
{"id": "C84", "title": "Bounds stay circularly sorted in a periodic scene", "statement": "After each run of the collider, each of the three lists holds exactly the two bounds of every body, in circular order starting at the split, and each stored coordinate plus its cell number is the bound of the body's current box up to one common shift of the body.", "quantifier": "all histories of runs, body motion across any number of cells, changes of the cell size, resets", "why_tests_cant": "bodies may cross borders in any order and any number per run", "anchors": ["pkg/common/InsertionSortCollider.cpp: insertionSortPeri, action"]}
{"id": "C85", "title": "Collision detection is complete in a periodic scene", "statement": "After each run of the collider, every pair of bodies that may collide and whose boxes overlap in some periodic image has an interaction.", "quantifier": "all histories of runs with moving bodies, added bodies, resets and restarts", "why_tests_cant": "depends on the order of all bounds after any history", "anchors": ["pkg/common/InsertionSortCollider.cpp: action, insertionSortPeri, handleBoundInversionPeri, cellWrap"]}
{"id": "C86", "title": "The cell offset of a potential interaction is the one in which the boxes overlap", "statement": "A potential interaction has the number of cells by which the second body is shifted to meet the first.", "quantifier": "all interactions after all histories", "why_tests_cant": "needs particular relative motion in a cell with large bodies", "anchors": ["pkg/common/InsertionSortCollider.cpp: handleBoundInversionPeri", "pkg/common/InsertionSortCollider.hpp: shouldBeErased"]}
{"id": "C87", "title": "No undefined behaviour in a periodic scene without bodies, or after switching to periodic", "statement": "A run of the collider is safe in an empty periodic scene, and after O.periodic was switched on between runs.", "quantifier": "all scenes and colliders", "why_tests_cant": "division by zero and out-of-range reads need not crash", "anchors": ["pkg/common/InsertionSortCollider.cpp: updatePeriodicity, action, insertionSortPeri", "pkg/common/InsertionSortCollider.hpp: VecBounds::norm"]}
{"id": "C88", "title": "A run from scratch is complete whatever happened before", "statement": "If a run of the collider in a periodic scene sorts from scratch (doSort, dirty interactions, first run, many new bodies), all overlapping pairs have an interaction after it, whatever cell numbers are stored from earlier runs.", "quantifier": "all stored cell numbers, coordinates and orders, all bodies", "why_tests_cant": "states left by arbitrary histories", "anchors": ["pkg/common/InsertionSortCollider.cpp: action, cellWrap"]}
{"id": "C89", "title": "A periodic collider run changes only what it must", "statement": "A run keeps real interactions unchanged, drops a potential one only if its boxes do not touch in any image, and adds only potential interactions, one per pair, between pairs allowed to collide that nearly touch in the stored image.", "quantifier": "all histories and interactions", "why_tests_cant": "must hold for the interactions of every pair after any history", "anchors": ["pkg/common/InsertionSortCollider.cpp: action, handleBoundInversionPeri", "core/InteractionContainer.hpp: conditionalyEraseNonReal"]}
{"id": "C90", "title": "A periodic collider run terminates", "statement": "A run of the collider with bodies not larger than half the cell ends, without exception and without reading outside its vectors.", "quantifier": "all histories, body positions arbitrarily far from the cell", "why_tests_cant": "the loops of the circular insertion sort have no obvious bound", "anchors": ["pkg/common/InsertionSortCollider.cpp: insertionSortPeri, action"]}
{"id": "C91", "title": "Splitting a scene by recursive bisection always ends", "statement": "When all processes split a scene with BISECTION_DECOMPOSITION, the split ends in every process, without exception and with the same result in every execution, for any number of workers and of spheres.", "quantifier": "all numbers of workers and spheres, all positions, all message timings", "why_tests_cant": "deadlocks depend on the number of processes, of bodies and on message timing", "anchors": ["py/mpy_bisection.py: splitScene", "py/tree_decomp.py: decomp_bodies.scatter_data, gather_data, process_data"]}
{"id": "C92", "title": "Bisection assigns each sphere to exactly one worker", "statement": "After the split each sphere is in the list of exactly one worker 1..n, body.subdomain on the master is the rank of this worker, and bodies that are not spheres keep their subdomain.", "quantifier": "all numbers of workers, all sets of spheres, all executions", "why_tests_cant": "lost or doubled bodies may only show for some counts of bodies and workers", "anchors": ["py/tree_decomp.py: decomp_bodies", "py/mpy_bisection.py: splitScene"]}
{"id": "C93", "title": "Bisection balances the load", "statement": "The workers get numbers of spheres that differ by at most one; if there are as many spheres as workers no worker is idle.", "quantifier": "all numbers of workers, of spheres, all positions", "why_tests_cant": "tests run with a few workers only", "anchors": ["py/tree_decomp.py: maxlevels, process_data"]}
{"id": "C94", "title": "Bisected subdomains are separated along an axis", "statement": "The spheres of any two workers are separated by a plane normal to one of the axes.", "quantifier": "all pairs of workers, all positions, number of axes and levels", "why_tests_cant": "a property of all pairs of subdomains for all arrangements", "anchors": ["py/tree_decomp.py: decomp_bodies.process_data, sort_data"]}
{"id": "C95", "title": "Bisection keeps the members of a clump together", "statement": "Spheres that are members of one clump are given to the same worker.", "quantifier": "all scenes with clumps", "why_tests_cant": "a property of all arrangements of clumps", "anchors": ["py/mpy_bisection.py: splitScene", "py/tree_decomp.py"]}
{"id": "C96", "title": "Bounds of a subdomain are those of its members", "statement": "After the bounds are updated, boundsMin and boundsMax are the corners of the smallest box around the bounds of the members, also when the subdomains have been assigned anew and the members have moved together.", "quantifier": "all sets of members, bounds and histories", "why_tests_cant": "the box has to be wrong only after particular histories", "anchors": ["core/Subdomain.cpp: setMinMax, Bo1_Subdomain_Aabb::go", "py/mpy_bisection.py: splitScene, updateDomainBounds"]}
{"id": "C97", "title": "A domain divided by hand", "statement": "Globaldomain(mn,mx,xDecomp,yDecomp,zDecomp) divides the box from mn to mx into xDecomp*yDecomp*zDecomp subdomains, with one worker from 1 on for each, such that each point of the box belongs to a subdomain, no subdomain reaches beyond the box and no two have inner points in common. A direction that is not given is not divided.", "quantifier": "all boxes and numbers of blocks", "why_tests_cant": "a gap or an overlap is seen only for a body that lies in it", "anchors": ["py/domaindecomposition.py: Globaldomain.__init__, makeAxis, partitionSubdomains, makeOneSubdomain"]}
{"id": "C98", "title": "findSubdomain tells the subdomain a point is located within", "statement": "Globaldomain.findSubdomain(point) returns the worker of the subdomain that contains the point, for every point in the domain and every decomposition.", "quantifier": "all boxes, decompositions and points", "why_tests_cant": "the answer is the minimum of a sum of eight distances, which agrees with containment for most points", "anchors": ["py/domaindecomposition.py: Globaldomain.findSubdomain"]}
{"id": "C99", "title": "Automatic decomposition for the desired number of threads", "statement": "Globaldomain(mn,mx,numThreads) terminates and divides the box into exactly numThreads subdomains which fill it and do not overlap.", "quantifier": "all boxes and numbers of threads", "why_tests_cant": "the search for the factors loops forever for some proportions only", "anchors": ["py/domaindecomposition.py: sideDecomposition, findIdxOfSmallestPositiveNumber, makeTwoSubdomains, partitionSubdomains"]}
{"id": "C100", "title": "Decomposition around a cloud of points", "statement": "GlobaldomainCloud gives each worker one point, the one of the drawn points that has the most distant nearest neighbour among the points chosen before and the corners; findSubdomain returns the worker whose point is the nearest.", "quantifier": "all boxes, sequences of random points and points asked for", "why_tests_cant": "the points are random, a wrong choice is as plausible as the right one", "anchors": ["py/domaindecomposition.py: GlobaldomainCloud.generateRandomCloud, findMostRemotePointNN, findSubdomain"]}
{"id": "C101", "title": "Each contact is evaluated exactly once per step, whatever the schedule of the threads", "statement": "In one run of the interaction loop every interaction is visited once. Its law is evaluated at most once, and exactly if the geometry functor for the two shapes reports contact, with both bodies in the order of the functor, the shift of the second body, the freshly computed geometry and the forces returned being the ones added; each active callback is called once for an interaction which is real after its law, and not otherwise. Numbers of bodies and cell distance are kept, or exchanged together. The final interactions do not depend on the schedule, and neither do the contributions to the forces, up to their order.", "quantifier": "all functors (symmetric dispatch), all histories of an interaction with fixed shapes, all scenes, all orders of the iterations", "why_tests_cant": "races and wrong caches show up only for particular schedules and histories of an interaction", "anchors": ["pkg/common/InteractionLoop.cpp:InteractionLoop::action", "core/Interaction.cpp:Interaction::swapOrder", "core/Interaction.cpp:Interaction::reset"]}
{"id": "C102", "title": "The step in which a contact was made is recorded", "statement": "An interaction which is real has been so without interruption since the step recorded in iterMadeReal, in which it became real; a law sees the interaction as fresh exactly in the first step of the contact, also when the contact was lost and made again.", "quantifier": "all histories of steps, erase requests, runs of a collider and changes of isActive, with increasing step numbers", "why_tests_cant": "needs all histories", "anchors": ["core/Interaction.cpp:Interaction::isFresh", "core/Interaction.hpp:iterMadeReal", "pkg/common/InteractionLoop.cpp:InteractionLoop::action"]}
{"id": "C103", "title": "After the loop an interaction is real only if its bodies exist and touch", "statement": "After the loop, a real interaction has both bodies, at least one of them belongs to the subdomain of the process, and its law has been evaluated in this step.", "quantifier": "all histories of an interaction, all scenes", "why_tests_cant": "needs all histories, e.g. bodies removed or changed at any time", "anchors": ["pkg/common/InteractionLoop.cpp:InteractionLoop::action"]}
{"id": "C104", "title": "Interactions not seen by the collider are removed", "statement": "If the collider has run in this step and leaves the deletion to the interaction loop (iterColliderLastRun is the current step), an interaction which is not real and has not been seen is removed by the loop.", "quantifier": "all sets of interactions and steps", "why_tests_cant": "memory grows slowly over a long simulation", "anchors": ["core/Interaction.hpp:iterLastSeen", "pkg/common/InteractionLoop.hpp:eraseAfterLoop", "pkg/common/InteractionLoop.cpp:InteractionLoop::action"]}
{"id": "C105", "title": "No forces from an interaction which is not active", "statement": "While isActive is False the forces of an interaction are not taken into account.", "quantifier": "all laws, all histories of an interaction", "why_tests_cant": "depends on the law and on what happens in later steps", "anchors": ["core/Interaction.hpp:isActive", "pkg/dem/ElasticContactLaw.cpp:Law2_ScGeom_FrictPhys_CundallStrack::go", "pkg/dem/ViscoelasticPM.cpp:Law2_ScGeom_ViscElPhys_Basic::go", "pkg/dem/LudingPM.cpp"]}
{"id": "C106", "title": "The interaction loop ends normally or reports an error", "statement": "If functors for all materials and laws are given, in any order of their arguments, the loop ends normally for all interactions which can arise; if one is missing, an error is reported to the caller.", "quantifier": "all functors, all reachable interactions, all schedules", "why_tests_cant": "depends on the order in which bodies of different materials meet", "anchors": ["pkg/common/InteractionLoop.cpp:InteractionLoop::action", "lib/multimethods/DynLibDispatcher.hpp:add2DEntry", "pkg/dem/FrictViscoPM.cpp:Ip2_FrictMat_FrictViscoMat_FrictViscoPhys::go"]}
{"id": "C107", "title": "FlatGridCollider: spheres that touch have an interaction at every step", "statement": "With FlatGridCollider, at every step of a simulation in which the distance reported to the collider bounds the motion, all pairs of spheres which touch and are allowed to collide have an interaction, for any grid, positions inside or outside of it, and verletDist.", "quantifier": "all grids, radii, positions, motions and numbers of steps", "why_tests_cant": "missing a contact depends on the position of spheres relative to cells", "anchors": ["pkg/dem/FlatGridCollider.cpp:action", "pkg/dem/FlatGridCollider.hpp:Grid"]}
{"id": "C108", "title": "FlatGridCollider stays within its memory", "statement": "For any positive cell size, box and positions of spheres (also outside of the box), the collider reads and writes only cells of its grid.", "quantifier": "all attributes and positions", "why_tests_cant": "out of bounds access occurs for special positions only and may go unnoticed", "anchors": ["pkg/dem/FlatGridCollider.cpp:updateGrid", "pkg/dem/FlatGridCollider.hpp:Grid::lin"]}
{"id": "C109", "title": "FlatGridCollider: a contact has its forces from the step in which it is found", "statement": "An interaction created by FlatGridCollider for spheres in contact is evaluated by InteractionLoop in the same step.", "quantifier": "all scenes and steps", "why_tests_cant": "whether the interaction is taken for unseen depends on the number of cells two spheres share", "anchors": ["pkg/dem/FlatGridCollider.cpp:updateCollisions", "pkg/common/InteractionLoop.cpp:InteractionLoop::action"]}
{"id": "C110", "title": "SpatialQuickSortCollider finds exactly the pairs with overlapping boxes", "statement": "After each step, every pair of bodies with overlapping boxes has an interaction seen in this step; real interactions are kept; other interactions do not exist.", "quantifier": "all scenes, histories of scenes and correct sorting functions (ties in any order)", "why_tests_cant": "needs all configurations of boxes, and the state the collider keeps from earlier steps", "anchors": ["pkg/common/SpatialQuickSortCollider.cpp:action"]}
{"id": "C111", "title": "SpatialQuickSortCollider is memory safe for all scenes", "statement": "Whatever bodies are added, erased, or have no bound (such as clumps), the collider neither reads memory that was never written nor uses bodies which do not exist.", "quantifier": "all histories of scenes", "why_tests_cant": "reading uninitialised memory mostly has no visible effect in a test", "anchors": ["pkg/common/SpatialQuickSortCollider.cpp:action", "core/InteractionContainer.cpp:insert"]}
{"id": "C112", "title": "All colliders obey the rules about which bodies may collide", "statement": "No interaction is created for bodies with incompatible masks, of the same clump, or of foreign subdomains, also by SpatialQuickSortCollider.", "quantifier": "all scenes", "why_tests_cant": "pairs forbidden by masks must be close for the effect to show", "anchors": ["pkg/common/SpatialQuickSortCollider.cpp:action", "pkg/common/Collider.cpp:mayCollide"]}
{"id": "C113", "title": "The automatic time step is stable", "statement": "With the time step (and density scaling) that GlobalStiffnessTimeStepper computes from the contacts, small motions of bodies in elastic contact stay bounded for ever: no scene of bodies and contacts makes velocities grow without limit when integrated with it.", "quantifier": "all scenes, contacts, stiffnesses and initial motions, any number of steps", "why_tests_cant": "whether a time step is below the limit depends on the largest eigenvalue of the whole assembly; a test sees one assembly for a few steps", "anchors": ["pkg/dem/GlobalStiffnessTimeStepper.cpp:computeTimeStep", "pkg/dem/GlobalStiffnessTimeStepper.cpp:findTimeStepFromBody", "pkg/dem/GlobalStiffnessTimeStepper.cpp:computeStiffnesses"]}
{"id": "C114", "title": "Automatic time steps are positive, bounded and change slowly", "statement": "Whatever the sequence of scenes, the time step GlobalStiffnessTimeStepper sets is positive, not more than maxDt (if that is positive) and at most 5 % more than the one before.", "quantifier": "all scenes, settings and numbers of updates", "why_tests_cant": "an invariant of all histories of updates", "anchors": ["pkg/dem/GlobalStiffnessTimeStepper.cpp:computeTimeStep", "pkg/dem/GlobalStiffnessTimeStepper.hpp:maxDt"]}
{"id": "C115", "title": "The automatic time step is determined by the scene", "statement": "Computing the time step uses only values that exist: with no option (viscEl, densityScaling, timeStepUpdateInterval), no kind of body and no history of the scene does it read uninitialised values or write outside of its arrays.", "quantifier": "all scenes, options and histories", "why_tests_cant": "effects of uninitialised values depend on the compiler; options may be changed at any moment", "anchors": ["pkg/dem/GlobalStiffnessTimeStepper.cpp:findTimeStepFromBody", "pkg/dem/GlobalStiffnessTimeStepper.cpp:computeStiffnesses", "pkg/dem/GlobalStiffnessTimeStepper.cpp:isActivated"]}
{"id": "C116", "title": "A sphere accepted by a predicate lies in the volume", "statement": "If a pack predicate (inSphere, inAlignedBox, inParallelepiped, inCylinder, inHyperboloid, inEllipsoid, notInNotch, and their unions, intersections, differences and symmetric differences) returns true for a point and a pad, then every point at distance at most pad from it is in the volume described; packings made by regularOrtho, regularHexa or filterSpherePack are therefore within it.", "quantifier": "all volumes built from the primitives by any number of boolean operations, all points and pads", "why_tests_cant": "infinitely many shapes and expressions; tests sample a few points of a few shapes, violations are near edges", "anchors": ["py/pack/_packPredicates.cpp:inSphere", "py/pack/_packPredicates.cpp:inEllipsoid", "py/pack/_packPredicates.cpp:notInNotch", "py/pack/_packPredicates.cpp:PredicateSymmetricDifference", "py/pack/_packPredicates.cpp:PredicateDifference"]}
{"id": "C117", "title": "The bounding box of a predicate contains what it accepts", "statement": "Every point which a pack predicate accepts with a pad that is not negative lies in the box returned by aabb().", "quantifier": "all volumes built from the primitives by any number of boolean operations, all points and pads", "why_tests_cant": "functions filling a predicate only look in its bounding box: what is outside is silently missing", "anchors": ["py/pack/_packPredicates.cpp:aabb", "py/pack/_packPredicates.cpp:inCylinder", "py/pack/_packPredicates.cpp:inEllipsoid"]}
{"id": "C118", "title": "Without pad a predicate is the volume it is named after", "statement": "With pad 0, a predicate accepts a point if and only if the point is in the volume (sphere, box, parallelepiped spanned by the three edges, cylinder, hyperboloid, ellipsoid, all but a notch) or the boolean combination of volumes.", "quantifier": "all volumes built from the primitives by any number of boolean operations, all points", "why_tests_cant": "formulas with normals and cross products must agree with the geometric definition in all orientations", "anchors": ["py/pack/_packPredicates.cpp:inParallelepiped", "py/pack/_packPredicates.cpp:inCylinder", "py/pack/_packPredicates.cpp:inHyperboloid"]}
{"id": "C119", "title": "Merging with one collective operation gives the master every body as its owner has it", "statement": "After mpf.mergeScene (and mpf_bisection.mergeScene), for any number of processes and any distribution of bodies, each body of the master's scene has position, velocity, angular velocity, orientation and box of its owner; bodies of the master and everything else in the scene are unchanged.", "quantifier": "all numbers of processes, distributions of bodies and scenes", "why_tests_cant": "the offsets into the collective buffer depend on the number of bodies of every process; tests use two or three processes and scenes where all have bodies", "anchors": ["py/mpf.py:mergeScene", "py/mpf_bisection.py:mergeScene", "core/Subdomain.hpp:setStateBoundsValuesFromIds"]}
{"id": "C120", "title": "Interpolation in a table gives the piecewise linear function, whatever was looked up before", "statement": "Engines that interpolate a table of times and values give, for every time, the value of the piecewise linear function through the table (its first or last value outside), independent of former lookups; the result lies between the smallest and the largest value, a periodic table repeats itself, and the search ends without reading outside of the table.", "quantifier": "all tables, times and histories of lookups", "why_tests_cant": "the position of the former lookup is kept as a cache; results depend on the sequence of times, and tests look up increasing times in sorted tables", "anchors": ["lib/smoothing/LinearInterpolate.hpp:linearInterpolate", "pkg/common/PeriodicEngines.hpp", "pkg/common/KinematicEngines.cpp:InterpolatingHelixEngine"]}
{"id": "C121", "title": "Rotation, helix and translation engines move bodies along the prescribed path without drift", "statement": "After any number of steps of any lengths, bodies moved by a TranslationEngine, RotationEngine or (Interpolating)HelixEngine are where the translation, rotation or screw by the velocities times the elapsed time takes them from their initial position and orientation; angleTurned is the angle turned.", "quantifier": "all axes, velocities, sequences of time steps, bodies and lists of ids", "why_tests_cant": "drift shows after many steps only; tests run some steps with a constant time step", "anchors": ["pkg/common/KinematicEngines.cpp:RotationEngine::apply", "pkg/common/KinematicEngines.cpp:HelixEngine::apply", "pkg/common/KinematicEngines.cpp:TranslationEngine::apply", "pkg/dem/NewtonIntegrator.cpp"]}
{"id": "C122", "title": "A bicycle pedal goes round a circle without turning, starting at the given phase", "statement": "Bodies moved by BicyclePedalEngine stay on a circle with the given radius normal to the axis, at the angle fi plus angular velocity times time, and keep their orientation.", "quantifier": "all axes, radii, phases, sequences of time steps and bodies", "why_tests_cant": "an offset of the phase or a drift of the centre is seen with particular phases and long runs only", "anchors": ["pkg/common/KinematicEngines.cpp:BicyclePedalEngine::apply"]}
{"id": "C123", "title": "Harmonic engines oscillate about a fixed point and do not drift", "statement": "Bodies moved by HarmonicMotionEngine or HarmonicRotationEngine follow the harmonic function of the given amplitude, frequency and phase for any number of steps; the excursion is bounded independent of the number of steps.", "quantifier": "all amplitudes, frequencies, phases, time steps and numbers of steps", "why_tests_cant": "the error depends on the ratio of time step and period; tests use small time steps", "anchors": ["pkg/common/KinematicEngines.cpp:HarmonicMotionEngine::apply", "pkg/common/KinematicEngines.cpp:HarmonicRotationEngine::apply"]}
{"id": "C124", "title": "A servo controller keeps to its maximum velocity and regulates the force along its axis", "statement": "Bodies moved by ServoPIDController never move faster than maxVelocity, whatever forces act; the controller compares the component of the force along its axis with the target.", "quantifier": "all forces, coefficients, axes, periods and numbers of steps", "why_tests_cant": "the clamp and the projection matter for particular forces and axes; tests use one coordinate axis", "anchors": ["pkg/common/KinematicEngines.cpp:ServoPIDController::apply"]}
{"id": "C125", "title": "Combined kinematic engines add their velocities, in any order, and touch nothing else", "statement": "A CombinedKinematicEngine gives each listed body the sum of the velocities its live engines would give it alone, independent of their order, and changes nothing but velocities of listed bodies; a+b makes a new engine and leaves a and b as they are.", "quantifier": "all lists of engines, ids and scenes", "why_tests_cant": "interference of engines shows for particular combinations; python's + has an aliasing effect that is seen when the intermediate result is used again", "anchors": ["pkg/common/KinematicEngines.cpp:CombinedKinematicEngine::action", "pkg/common/KinematicEngines.cpp:CombinedKinematicEngine::fromTwo", "pkg/common/KinematicEngines.hpp:CombinedKinematicEngine"]}
{"id": "C126", "title": "All columns of plot data always have the same length", "statement": "After any sequence of calls of the plot module (reset, resetData, addData, splitData, reverseData, addDataColumns, addImgData, createPlots), calls that raise an error included, all columns of plot.data have the same length.", "quantifier": "all sequences of calls and arguments, whatever order python gives to the keys of dictionaries", "why_tests_cant": "the order of keys is arbitrary and lengths depend on the history; tests use a few calls in a fixed order", "anchors": ["py/plot.py:addData", "py/plot.py:addImgData", "py/plot.py:addDataColumns", "py/plot.py:createPlots"]}
{"id": "C127", "title": "addData adds one row with the values given and nan elsewhere", "statement": "A call of addData appends to each column the value given for it, or nan; new columns have nan in former rows; components of vectors and matrices go to columns of their own; nothing else changes, the argument included; a sequence is refused without any effect.", "quantifier": "all arguments, tables and histories of calls", "why_tests_cant": "names of components may collide with other names; arguments may be used again by the caller; tests add disjoint names", "anchors": ["py/plot.py:addData"]}
{"id": "C128", "title": "reset resets all variables of the plot module", "statement": "After reset, data, images, plots and labels are empty as documented, and the next call of addData gives the first row.", "quantifier": "all states of the module", "why_tests_cant": "it shows only for variables a test does not look at, and in the next run of the same session", "anchors": ["py/plot.py:reset", "py/plot.py:resetData"]}
{"id": "C129", "title": "Images stay aligned with rows of data", "statement": "addImgData puts the image in the row of the last data, all columns of images have the same length, former images and data are unchanged and values nobody gave are nan; no error is raised.", "quantifier": "all tables, names of images and orders of keys", "why_tests_cant": "the result depends on the order python gives to keys and on the history of both kinds of data", "anchors": ["py/plot.py:addImgData", "py/plot.py:reverseData", "py/plot.py:createPlots"]}
{"id": "C130", "title": "Data saved as text can be read again", "statement": "Reading a file written by saveDataTxt gives the names of the columns and the same numbers in all rows.", "quantifier": "all tables, names, headers and numbers", "why_tests_cant": "it depends on characters of names and digits of numbers", "anchors": ["py/plot.py:saveDataTxt"]}
{"id": "C131", "title": "Spheres of a random packing do not overlap", "statement": "After makeCloud no sphere it made touches another sphere of the packing, nor, in a periodic packing, an image of another sphere or of itself.", "quantifier": "all boxes and cells, sizes, numbers, former packings and random numbers", "why_tests_cant": "it must hold for all random numbers; skewed cells need nearest images that a componentwise rule misses", "anchors": ["pkg/dem/SpherePack.cpp:makeCloud"]}
{"id": "C132", "title": "Spheres of a random packing are in the box", "statement": "makeCloud puts spheres between the two corners of the box, with centres in its plane if it is flat, and centres in the cell if it is periodic.", "quantifier": "all boxes, sizes and random numbers", "why_tests_cant": "sizes larger than the box are accepted without a message", "anchors": ["pkg/dem/SpherePack.cpp:makeCloud"]}
{"id": "C133", "title": "makeCloud returns the number of spheres it made and keeps others", "statement": "The number returned is the number of created spheres, at most num; spheres that were in the packing remain.", "quantifier": "all packings, arguments and random numbers, with any number of attempts", "why_tests_cant": "attempts follow one another only in dense packings", "anchors": ["pkg/dem/SpherePack.hpp:makeCloud", "pkg/dem/SpherePack.cpp:makeCloud"]}
{"id": "C134", "title": "The same seed gives the same random packing", "statement": "makeCloud called with the same non-zero seed and arguments gives the same packing, whatever was called before and the time.", "quantifier": "all sequences of calls in one process, seeds and clocks", "why_tests_cant": "a test calls it once; the generator is a static variable", "anchors": ["pkg/dem/SpherePack.cpp:makeCloud"]}
{"id": "C135", "title": "Radii of a random packing are those asked for", "statement": "Radii are in rMean(1±rRelFuzz); with a number and porosity the volume of spheres of mean radius is the one asked for or smaller; with a distribution of sizes all diameters are between its ends, scaled by one factor; wrong distributions raise an exception.", "quantifier": "all arguments and random numbers", "why_tests_cant": "reading outside a distribution depends on the random number and is undefined behaviour", "anchors": ["pkg/dem/SpherePack.cpp:makeCloud", "pkg/dem/SpherePack.cpp:psdGetPiece", "pkg/dem/SpherePack.hpp:pow3Interp"]}
{"id": "C136", "title": "A repeated periodic packing is the same infinite packing", "statement": "cellRepeat((n,m,p)) multiplies the cell by n, m, p, gives n*m*p times as many spheres whose periodic images are exactly those of the packing before (with their clumps), makes no overlap if there was none, and otherwise raises and changes nothing.", "quantifier": "all packings, counts and images", "why_tests_cant": "the set of images is infinite", "anchors": ["pkg/dem/SpherePack.cpp:cellRepeat"]}
{"id": "C137", "title": "cellFill gives the smallest repetition that covers the volume", "statement": "cellFill(vol) repeats the packing so that its size is at least vol and less than one cell more; a packing that is not periodic raises an exception.", "quantifier": "all packings and volumes", "why_tests_cant": "the result of a wrong conversion to an integer is undefined", "anchors": ["pkg/dem/SpherePack.cpp:cellFill"]}
{"id": "C138", "title": "psd gives the distribution of sizes", "statement": "psd(bins,mass) returns the cumulative curve and the edges: edges are equally spaced from the smallest diameter to the largest; each value is the fraction, by number or by mass, of spheres below that edge; the last is 1.", "quantifier": "all packings and numbers of bins", "why_tests_cant": "holds for every edge and packing; a test checks one histogram", "anchors": ["pkg/dem/SpherePack.cpp:psd"]}
{"id": "C139", "title": "Moving, rotating and scaling a packing keep its shape", "statement": "translate, rotate and rotateAroundOrigin keep all distances, radii and clumps; scale multiplies all of them; opposite moves restore the packing; aabb is the smallest box; overlaps and relative density are kept.", "quantifier": "all packings, vectors, axes, angles and factors", "why_tests_cant": "quantifies over pairs of spheres and real numbers", "anchors": ["pkg/dem/SpherePack.hpp:translate", "pkg/dem/SpherePack.hpp:rotate", "pkg/dem/SpherePack.hpp:rotateAroundOrigin", "pkg/dem/SpherePack.hpp:scale", "pkg/dem/SpherePack.hpp:aabb", "pkg/dem/SpherePack.hpp:relDensity"]}
{"id": "C140", "title": "A packing made from data is determined by the data", "statement": "A packing made from a list, two lists or the simulation holds exactly that data; toList gives it back; indexing and iteration agree with it; nothing of what was in the packing before remains; a call that raises changes nothing.", "quantifier": "all lists, simulations and packings before", "why_tests_cant": "tests start with an empty packing", "anchors": ["pkg/dem/SpherePack.cpp:fromList", "pkg/dem/SpherePack.cpp:fromLists", "pkg/dem/SpherePack.cpp:toList", "pkg/dem/SpherePack.cpp:fromSimulation", "pkg/dem/SpherePack.hpp:getitem", "pkg/dem/SpherePack.hpp:SpherePack"]}
{"id": "C141", "title": "getClumps splits the spheres", "statement": "getClumps returns the numbers of spheres that belong to no clump and, for each clump in the order of its number, those of its members; each sphere is in exactly one of these lists; hasClumps says whether there are any.", "quantifier": "all packings", "why_tests_cant": "holds for every numbering of clumps", "anchors": ["pkg/dem/SpherePack.cpp:getClumps", "pkg/dem/SpherePack.cpp:hasClumps"]}
{"id": "C142", "title": "Clumps of a random packing are in the box and do not overlap", "statement": "After makeClumpCloud every sphere of every clump is inside the box (or, if periodic, the cell has the size of the box) and no sphere overlaps one of another clump, an image of one, or a sphere that was in the packing before.", "quantifier": "all boxes, clumps, numbers, random sequences and packings before", "why_tests_cant": "overlaps depend on random positions of every pair of spheres", "anchors": ["pkg/dem/SpherePack.cpp:makeClumpCloud", "pkg/dem/SpherePack.hpp:ClumpInfo"]}
{"id": "C143", "title": "makeClumpCloud adds rigid copies of the given clumps", "statement": "makeClumpCloud leaves the spheres that are there, adds copies of the given clumps moved and rotated as rigid bodies, gives each a clump number of its own and returns their number; a clump that fits in the box is placed wherever it was defined; a periodic packing is marked as periodic.", "quantifier": "all clumps, boxes, random sequences and packings before", "why_tests_cant": "quantifies over rotations, positions and histories", "anchors": ["pkg/dem/SpherePack.cpp:makeClumpCloud", "pkg/dem/SpherePack.cpp:midPt"]}
{"id": "C144", "title": "makeClumpCloud returns", "statement": "Every call of makeClumpCloud returns with at most the number of clumps asked for, or raises an exception.", "quantifier": "all arguments, random sequences and packings before", "why_tests_cant": "a read outside the list may go unnoticed in tests; loops without an end cannot be tested", "anchors": ["pkg/dem/SpherePack.cpp:makeClumpCloud"]}
{"id": "C145", "title": "A packing saved to a file and loaded is the same", "statement": "SpherePack.load of a file written by SpherePack.save gives the same spheres, clumps and periodicity, whatever was in the packing before; a file that cannot be read changes nothing.", "quantifier": "all packings, files and packings before", "why_tests_cant": "tests save simple numbers and load into an empty packing", "anchors": ["pkg/dem/SpherePack.cpp:toFile", "pkg/dem/SpherePack.cpp:fromFile", "pkg/dem/Shop_01.cpp:loadSpheresFromFile"]}
{"id": "C146", "title": "Forces and moments of a cohesive contact are in balance", "statement": "Law2_ScGeom6D_CohFrictPhys_CohesionMoment gives the two bodies of a contact opposite forces and moments whose total, about any point, is zero, and no force to any other body.", "quantifier": "all contacts, materials, motions and histories", "why_tests_cant": "tests look at some trajectories", "anchors": ["pkg/dem/CohesiveFrictionalContactLaw.cpp:Law2_ScGeom6D_CohFrictPhys_CohesionMoment::go"]}
{"id": "C147", "title": "The strength of a cohesive contact is as documented", "statement": "The normal force is elastic and no tension exceeds the normal adhesion, the shear force is the elastic one brought back to the friction angle plus shear adhesion, rolling and twisting moments are brought back to their limits; a negative adhesion means an elastic contact.", "quantifier": "all contacts, materials, motions and histories", "why_tests_cant": "strength depends on the combination of adhesion, friction, breakage and moments", "anchors": ["pkg/dem/CohesiveFrictionalContactLaw.cpp:Law2_ScGeom6D_CohFrictPhys_CohesionMoment::go", "pkg/dem/CohesiveFrictionalContactLaw.hpp:CohFrictPhys"]}
{"id": "C148", "title": "A broken bond stays broken", "statement": "Over any number of steps, a contact keeps its adhesion as it is or has broken and has none; a broken one never carries tension; a fragile contact is lost if its tension or shear strength is exceeded.", "quantifier": "all histories of all contacts", "why_tests_cant": "tests break few contacts in few ways", "anchors": ["pkg/dem/CohesiveFrictionalContactLaw.cpp:Law2_ScGeom6D_CohFrictPhys_CohesionMoment::go", "pkg/dem/CohesiveFrictionalContactLaw.cpp:CohesiveFrictionalContactLaw::action", "pkg/dem/CohesiveFrictionalContactLaw.hpp:SetBreakingState"]}
{"id": "C149", "title": "setCohesionNow assigns cohesion in the current step only", "statement": "With Ip2_CohFrictMat_CohFrictMat_CohFrictPhys.setCohesionNow, all contacts between cohesive materials become cohesive in that step and none in other steps, whenever it is set and whether the simulation is saved; setCohesionOnNewContacts does it for new contacts.", "quantifier": "all sequences of steps and contacts, all materials", "why_tests_cant": "tests set the flag once in one simulation", "anchors": ["pkg/dem/CohesiveFrictionalContactLaw.cpp:Ip2_CohFrictMat_CohFrictMat_CohFrictPhys::go"]}
{"id": "C150", "title": "Stiffness and energies of cohesive contacts", "statement": "The parameters of a contact do not depend on the order of its bodies, stiffness is the harmonic average, and the elastic energy is the sum of its four parts and not negative.", "quantifier": "all materials, radii and lists of contacts", "why_tests_cant": "tests use equal materials", "anchors": ["pkg/dem/CohesiveFrictionalContactLaw.cpp:Ip2_CohFrictMat_CohFrictMat_CohFrictPhys::go", "pkg/dem/CohesiveFrictionalContactLaw.cpp:totalElastEnergy"]}
{"id": "C151", "title": "The convex hull contains all points", "statement": "The convex hull of points is a polygon of some of the points, corners anticlockwise, that has all points inside or on its sides and no superfluous corners, for any order of the points.", "quantifier": "all lists of points", "why_tests_cant": "hulls go wrong for points in line and equal coordinates", "anchors": ["lib/computational-geometry/Hull2d.hpp:ConvexHull2d"]}
{"id": "C152", "title": "The area of a polygon", "statement": "The area of a polygon is that of the triangles that make it up; it depends neither on the corner that comes first, the direction, nor the place, and grows with the square of the size.", "quantifier": "all polygons", "why_tests_cant": "tests compute areas of few polygons", "anchors": ["lib/computational-geometry/Hull2d.hpp:simplePolygonArea2d"]}
{"id": "C153", "title": "The area of a section through spheres", "statement": "approxSectionArea gives the area of the convex hull of the spheres that meet the plane, 0 if there are none, and refuses other axes.", "quantifier": "all spheres, coordinates and axes", "why_tests_cant": "the result is approximate, so tests cannot tell", "anchors": ["py/_utils.cpp:approxSectionArea"]}
{"id": "C154", "title": "A loop over the bodies meets each body once", "statement": "A loop over O.bodies inside of an engine meets every body that exists exactly once, in the order of the ids, skips those erased, and reads nothing outside of the container.", "quantifier": "all containers with any pattern of erased bodies", "why_tests_cant": "patterns of erased bodies are unbounded; an access behind the end has no visible effect in tests", "anchors": ["core/BodyContainer.hpp:smart_iterator", "core/BodyContainer.hpp:begin"]}
{"id": "C155", "title": "Homogeneous gravity", "statement": "GravityEngine adds mass times gravity to each body that is no clump and matches the mask and changes no other force; the work it books balances the kinetic energy gained; clumps fall with the given acceleration.", "quantifier": "all bodies, masks, masses, velocities and clumps", "why_tests_cant": "work differs by a term of second order in the time step, clumps only if members overlap", "anchors": ["pkg/common/GravityEngines.cpp:GravityEngine::action", "core/Clump.cpp:updateProperties"]}
{"id": "C156", "title": "Gravity towards a body", "statement": "CentralGravityEngine pulls every other body that matches the mask towards the central one with the given acceleration, adds no net force if reciprocal, and changes nothing else.", "quantifier": "all bodies, positions, masks and central bodies", "why_tests_cant": "tests have few bodies and one that exists", "anchors": ["pkg/common/GravityEngines.cpp:CentralGravityEngine::action"]}
{"id": "C157", "title": "Forces towards or away from an axis", "statement": "AxialGravityEngine and RadialForceEngine give each body a force of the given magnitude, perpendicular to the axis and towards or away from it; bodies on the axis and all others get none.", "quantifier": "all axes, bodies and positions", "why_tests_cant": "directions are continuous; degenerate axes are not tested", "anchors": ["pkg/common/GravityEngines.cpp:AxialGravityEngine::action", "pkg/common/ForceEngine.cpp:RadialForceEngine::action"]}
{"id": "C158", "title": "A force given to bodies by id", "statement": "ForceEngine adds its force to each existing body once for each time its id is listed, and to no other; InterpolatingDirectedForceEngine does so with the magnitude interpolated at the current time and the direction normalized.", "quantifier": "all lists of ids, containers, times and tables", "why_tests_cant": "lists may repeat ids or name bodies that do not exist", "anchors": ["pkg/common/ForceEngine.cpp:ForceEngine::action", "pkg/common/ForceEngine.cpp:InterpolatingDirectedForceEngine::action"]}
{"id": "C159", "title": "Drag slows bodies down", "statement": "DragEngine and LinearDragEngine give each listed sphere a force opposite to its velocity, of the documented magnitude, which decelerates it, and skip ids of bodies that do not exist.", "quantifier": "all velocities, parameters, time steps and lists of ids", "why_tests_cant": "depends on the ratio of time step, mass and coefficient", "anchors": ["pkg/common/ForceEngine.cpp:DragEngine::action", "pkg/common/ForceEngine.cpp:LinearDragEngine::action"]}
{"id": "C160", "title": "Setting up a uniaxial test", "statement": "At its first step UniaxialStrainer takes the distance of the reference bodies as original length, computes the missing one of strainRate and absSpeed, blocks the ends as asked, changes nothing else (or gives linear velocities if setSpeeds), and refuses wrong setups.", "quantifier": "all configurations, bodies and attributes", "why_tests_cant": "all combinations of flags, ids and positions; state after an exception", "anchors": ["pkg/dem/UniaxialStrainer.cpp:UniaxialStrainer::init"]}
{"id": "C161", "title": "Straining at the given rate", "statement": "The ends move apart at strainRate, reached linearly from zero in initAccelTime, shared by the ends as asymmetry says, for any number of steps and whatever other bodies do.", "quantifier": "all rates, numbers of steps, forces and motions of other bodies", "why_tests_cant": "histories of any length", "anchors": ["pkg/dem/UniaxialStrainer.cpp:UniaxialStrainer::action", "pkg/dem/UniaxialStrainer.hpp:strainRate"]}
{"id": "C162", "title": "Stopping at a strain", "statement": "Once stopStrain is reached from below in absolute value the specimen has exactly this strain, straining ceases, and the simulation stops after idleIterations without straining activity.", "quantifier": "all stop strains, rates and numbers of steps", "why_tests_cant": "depends on the last step and on what comes after it", "anchors": ["pkg/dem/UniaxialStrainer.cpp:UniaxialStrainer::action", "pkg/dem/UniaxialStrainer.hpp:stopStrain"]}
{"id": "C163", "title": "Reversing at a limit strain", "statement": "The sense of straining is inverted once, sharply, when limitStrain is passed.", "quantifier": "all limits, rates and histories", "why_tests_cant": "histories of any length", "anchors": ["pkg/dem/UniaxialStrainer.cpp:UniaxialStrainer::action", "pkg/dem/UniaxialStrainer.hpp:limitStrain"]}
{"id": "C164", "title": "Stress on the supports", "statement": "avgStress is the mean of the forces on both supports divided by the cross section, positive in tension, renewed each stressUpdateInterval steps and kept between.", "quantifier": "all forces, sections, intervals and iterations", "why_tests_cant": "sums over any number of bodies", "anchors": ["pkg/dem/UniaxialStrainer.cpp:UniaxialStrainer::computeAxialForce", "pkg/dem/UniaxialStrainer.cpp:UniaxialStrainer::action"]}
{"id": "C165", "title": "Isotropic compression: size of the cell", "statement": "However many steps are made, the isotropic compressor of periodic packings never makes an edge of the cell shorter than 2.1 times the largest body.", "quantifier": "all numbers of steps, measured forces and stiffnesses, sizes and series of stresses", "why_tests_cant": "series of thousands of steps with any forces", "anchors": ["pkg/dem/PeriIsoCompressor.cpp:PeriIsoCompressor::action"]}
{"id": "C166", "title": "Isotropic compression: one step", "statement": "One step changes edges by at most the maximum displacement per step, and keeps the proportions of the cell if asked for.", "quantifier": "all sizes, stresses, stiffnesses and time steps", "why_tests_cant": "any real number", "anchors": ["pkg/dem/PeriIsoCompressor.cpp:PeriIsoCompressor::action"]}
{"id": "C167", "title": "Isotropic compression: series of stresses", "statement": "The next stress of the series is taken, and at the end the hook run, only when the measured stress is within 0.5 % of the goal and the unbalanced force is below the maximum.", "quantifier": "all stresses, iterations and states", "why_tests_cant": "any history", "anchors": ["pkg/dem/PeriIsoCompressor.cpp:PeriIsoCompressor::action"]}
{"id": "C168", "title": "Triaxial control: limits", "statement": "The triaxial controller of periodic cells never exceeds the maximum strain rates nor makes an edge shorter than 2.1 times the largest body.", "quantifier": "all sizes, goals, rates, contacts and masses", "why_tests_cant": "any real number", "anchors": ["pkg/dem/PeriIsoCompressor.cpp:PeriTriaxController::action"]}
{"id": "C169", "title": "Triaxial control: imposed strain", "statement": "Where strain is imposed the cell reaches it and stays there.", "quantifier": "all goals, transformations and histories of growth", "why_tests_cant": "any real number", "anchors": ["pkg/dem/PeriIsoCompressor.cpp:PeriTriaxController::action"]}
{"id": "C170", "title": "Triaxial control: predicted stress", "statement": "Between updates, where stress is imposed, the stress predicted after the step of the cell is the one wanted if no limit is met.", "quantifier": "all sizes, stresses and stiffnesses", "why_tests_cant": "any real number", "anchors": ["pkg/dem/PeriIsoCompressor.cpp:PeriTriaxController::action"]}
{"id": "C171", "title": "Triaxial control: hook", "statement": "The hook is run only when all imposed strains and stresses are met and the unbalanced force is below the maximum.", "quantifier": "all states, contacts and iterations", "why_tests_cant": "any history", "anchors": ["pkg/dem/PeriIsoCompressor.cpp:PeriTriaxController::action"]}
{"id": "C172", "title": "Triaxial control: measured stress and stiffness", "statement": "The measured stress is the sum over contacts of minus force times branch vector over the volume; it depends neither on the order of contacts nor on the order of bodies in a contact; the measured stiffness is between those of contacts.", "quantifier": "all lists of contacts", "why_tests_cant": "sums over any number of contacts", "anchors": ["pkg/dem/PeriIsoCompressor.cpp:PeriTriaxController::strainStressStiffUpdate"]}
{"id": "C173", "title": "Facets: what is precomputed", "statement": "A facet made of three vertices is the triangle of these vertices; its normal, area, outward normals of edges and inscribed circle are those of the triangle, also after vertices are changed.", "quantifier": "all triples of points", "why_tests_cant": "any real coordinates, thin triangles", "anchors": ["pkg/common/Facet.cpp:Facet::postLoad", "py/utils.py:facet", "py/_utils.cpp:setNewVerticesOfFacet", "pkg/dem/Shop_02.cpp:Shop::inscribedCircleCenter"]}
{"id": "C174", "title": "Facets and spheres: contacts", "statement": "A facet and a sphere are in contact if and only if the sphere reaches the triangle (or a contact is asked for or exists); the contact is at the nearest point of the triangle, its normal points from there to the center, its depth is the radius less the distance; contacts of one pair do not influence others.", "quantifier": "all triangles, positions, orientations, radii", "why_tests_cant": "faces, edges and corners of any triangle", "anchors": ["pkg/dem/Ig2_Facet_Sphere_ScGeom.cpp:Ig2_Facet_Sphere_ScGeom::go"]}
{"id": "C175", "title": "Facets: bounding boxes", "statement": "The bounding box of a facet is the smallest that contains it, and a facet and a sphere in contact have bounding boxes that overlap.", "quantifier": "all facets, positions, orientations, spheres", "why_tests_cant": "any orientation, all points of a triangle", "anchors": ["pkg/common/Bo1_Aabb.cpp:Bo1_Facet_Aabb::go", "pkg/common/Bo1_Aabb.cpp:Bo1_Sphere_Aabb::go"]}
{"id": "C176", "title": "Boxes: bounding boxes", "statement": "The bounding box of a box is the smallest that contains it in all cells, and a box and a sphere in contact have bounding boxes that overlap.", "quantifier": "all sizes, positions, orientations, spheres", "why_tests_cant": "any orientation, all points of a box", "anchors": ["pkg/common/Bo1_Aabb.cpp:Bo1_Box_Aabb::go"]}
{"id": "C177", "title": "Boxes and spheres: center outside", "statement": "If the center of a sphere is outside of a box, they are in contact if and only if the sphere reaches the box or a contact is asked for or exists; the contact is at the nearest point of the box, its normal points from there to the center, its depth is the radius less the distance.", "quantifier": "all sizes, positions, orientations, radii", "why_tests_cant": "faces, edges and corners in any orientation", "anchors": ["pkg/dem/Ig2_Box_Sphere_ScGeom.cpp:Ig2_Box_Sphere_ScGeom::go"]}
{"id": "C178", "title": "Boxes and spheres: center inside", "statement": "If the center of a sphere is inside of a box, the normal points to the nearest point of the surface, the depth is the radius and the distance to it, and the point of contact is between that point and the opposite end of the sphere.", "quantifier": "all sizes, positions, orientations, radii, periodic shifts", "why_tests_cant": "any position inside", "anchors": ["pkg/dem/Ig2_Box_Sphere_ScGeom.cpp:Ig2_Box_Sphere_ScGeom::go"]}
{"id": "C179", "title": "Sizes, strains and porosity reported by the triaxial controller are those of the box between its walls", "statement": "After every step the width, height and depth shown are the distances between inner faces of opposite walls (a negative thickness is replaced by that of the bottom box); at measuring steps strains are logarithms of sizes relative to the reference sizes, the volumetric strain is the logarithm of the volume ratio; in between they keep their values; porosity is one minus solid volume over box volume.", "quantifier": "all walls positions, forces, bodies, iterations and histories of the reference sizes", "why_tests_cant": "sizes and references depend on all earlier steps and on any configuration of walls", "anchors": ["pkg/dem/TriaxialStressController.cpp: action, computeStressStrain"]}
{"id": "C180", "title": "Stresses reported by the triaxial controller are forces over areas", "statement": "stress(i) has as its normal component the force on wall i over the area of the box there, positive for tension, and meanStress is the mean of the six normal stresses; asking for another number raises an error.", "quantifier": "all forces, sizes, wall numbers", "why_tests_cant": "every combination of forces and sizes", "anchors": ["pkg/dem/TriaxialStressController.cpp: computeStressStrain, getStress"]}
{"id": "C181", "title": "Strain control attains the strain rate asked for", "statement": "On an axis controlled in strain rate, the rate tends to the goal like strainDamping^n, and equals it without damping, so that the size is multiplied by 1+goal*dt at each step.", "quantifier": "all numbers of steps, timesteps, forces, bodies, damping coefficients, activated walls", "why_tests_cant": "needs induction over all histories; forces and other bodies arbitrary", "anchors": ["pkg/dem/TriaxialStressController.cpp: action, getStrainRate"]}
{"id": "C182", "title": "Stress control moves walls towards the stress asked for", "statement": "A wall controlled in stress moves along its normal, inwards if it is less compressed than asked for, outwards if more, and rests when the goal is met; without damping it moves by what its contacts need to carry the force asked for; stressDamping 1 means no movement.", "quantifier": "all forces, stiffnesses, sizes, damping coefficients", "why_tests_cant": "every state of contacts and forces", "anchors": ["pkg/dem/TriaxialStressController.cpp: controlExternalStress, updateStiffness"]}
{"id": "C183", "title": "Walls controlled in stress obey max_vel", "statement": "No wall controlled in stress moves faster than the maximum for its axis; maxima at which the strain rate is isotropic.", "quantifier": "all histories of forces and stiffnesses", "why_tests_cant": "velocities depend on all earlier steps", "anchors": ["pkg/dem/TriaxialStressController.cpp: action, controlExternalStress; TriaxialStressController.hpp: max_vel"]}
{"id": "C184", "title": "A triaxial controller goes on after saving and loading", "statement": "Saving and reloading a simulation between two steps does not change what the triaxial controller does next.", "quantifier": "all states and steps at which to save", "why_tests_cant": "every crash or save point", "anchors": ["pkg/dem/TriaxialStressController.hpp: attributes; TriaxialStressController.cpp: action"]}
{"id": "C185", "title": "Internal compaction makes particles grow towards the stress asked for, within limits", "statement": "With internalCompaction, at multiples of radiusControlInterval, particles grow if the mean stress is less compressive than asked for, shrink if more, by no more than maxMultiplier; radii stay positive numbers; the solid volume shown follows.", "quantifier": "all mean stresses, goals, masks, multipliers, packings", "why_tests_cant": "every mean stress and mask", "anchors": ["pkg/dem/TriaxialStressController.cpp: action, controlInternalStress; pkg/dem/Shop_02.cpp: growParticles"]}
{"id": "C186", "title": "External work of the triaxial controller is the work of forces on walls", "statement": "At each step externalWork grows by the sum over the six walls of force times displacement, however they are controlled.", "quantifier": "all forces, velocities, masks, activated walls", "why_tests_cant": "sum over all walls for all inputs and modes", "anchors": ["pkg/dem/TriaxialStressController.cpp: action, controlExternalStress"]}
{"id": "C187", "title": "The triaxial controller touches only its walls", "statement": "A step changes velocities of the six walls and nothing else of the world: no positions, no other body; walls stand still during internal compaction, and particles grow only then.", "quantifier": "all worlds, states, configurations", "why_tests_cant": "frame condition over all bodies", "anchors": ["pkg/dem/TriaxialStressController.cpp: action"]}
{"id": "C188", "title": "The walls watched are the walls driven", "statement": "Forces and stiffness used to control a wall are those of the body given as that wall.", "quantifier": "all histories of wall ids", "why_tests_cant": "ids may be changed at any step", "anchors": ["pkg/dem/TriaxialStressController.cpp: action (first, wall_id)"]}
{"id": "C189", "title": "A sphere factory accounts for all it makes", "statement": "Over any run of a SpheresFactory, ids made earlier stay; totalMass, totalVolume and numParticles grow exactly by those of the new spheres; every new sphere has the mass of a ball of the chosen material, radius and speed within the ranges given and velocity along the direction given; with an invalid material nothing is made.", "quantifier": "all configurations, random numbers, obstacles, time steps, numbers of steps", "why_tests_cant": "random and unbounded histories", "anchors": ["pkg/dem/SpheresFactory.cpp: SpheresFactory::action", "pkg/dem/SpheresFactory.hpp: attributes"]}
{"id": "C190", "title": "A sphere factory stops at its limits", "statement": "No more than maxParticles spheres are made; the mass exceeds neither the goal of the step nor maxMass by more than one particle; a step that did not fail has reached a limit.", "quantifier": "all configurations and histories", "why_tests_cant": "all combinations of limits and histories", "anchors": ["pkg/dem/SpheresFactory.cpp: SpheresFactory::action"]}
{"id": "C191", "title": "A sphere factory follows the grading curve", "statement": "For a given cumulative curve (PSDcum, PSDsizes), by mass or by number, the share of each bin in what was made tends to that asked for, also for curves given in percent and after saving and reloading, and arrays are not read out of bounds.", "quantifier": "all curves, numbers of particles, random numbers, save points", "why_tests_cant": "convergence over unbounded histories", "anchors": ["pkg/dem/SpheresFactory.cpp: SpheresFactory::action (PSDcum, PSDNeedProc, PSDCurMean, PSDCurProc)", "pkg/dem/SpheresFactory.hpp: PSDuse"]}
{"id": "C192", "title": "New spheres do not overlap", "statement": "A sphere is only put where it overlaps neither spheres made in the same step nor bodies known to the collider.", "quantifier": "all configurations, obstacles, random numbers, numbers of attempts", "why_tests_cant": "every placement", "anchors": ["pkg/dem/SpheresFactory.cpp: SpheresFactory::action (attempt loop)"]}
{"id": "C193", "title": "New spheres are inside of the region", "statement": "Spheres of a CircularFactory or BoxFactory lie inside of the cylinder or box given.", "quantifier": "all regions, orientations, radii, random numbers", "why_tests_cant": "every random position", "anchors": ["pkg/dem/SpheresFactory.cpp: CircularFactory::pickRandomPosition, BoxFactory::pickRandomPosition"]}
{"id": "C194", "title": "A factory that fails to place a sphere stops for good", "statement": "With stopIfFailed (or silent, as documented) nothing more is made after a failure, at any later step.", "quantifier": "all later histories", "why_tests_cant": "unbounded future", "anchors": ["pkg/dem/SpheresFactory.cpp: SpheresFactory::action (maxAttempt)", "pkg/dem/SpheresFactory.hpp: silent, stopIfFailed"]}
{"id": "C195", "title": "A step of a sphere factory ends", "statement": "Every step of a factory ends after finitely many particles.", "quantifier": "all configurations, goals, random numbers", "why_tests_cant": "non-termination cannot be observed by tests", "anchors": ["pkg/dem/SpheresFactory.cpp: SpheresFactory::action"]}
{"id": "C196", "title": "The probe of the collider finds what is in a box", "statement": "probeBoundingVolume returns all bodies whose bounding boxes at their present positions meet the box given, and no others.", "quantifier": "all lists of bounds, margins and displacements since the last sort", "why_tests_cant": "every configuration between two runs of the collider", "anchors": ["pkg/common/InsertionSortCollider.cpp: probeBoundingVolume"]}
{"id": "C197", "title": "The domain limiter deletes what has left, and nothing else", "statement": "DomainLimiter deletes just the spheres and clumps (with members) selected by the mask whose centers are out of the box, and counts their number, mass and volume.", "quantifier": "all sets of bodies, clumps, positions, masks", "why_tests_cant": "all sets of bodies, including positions that are not numbers", "anchors": ["pkg/dem/DomainLimiter.cpp: DomainLimiter::action", "core/BodyContainer.cpp: erase"]}
{"id": "C198", "title": "The contact of Hertz and Mindlin has the stiffness of the theory", "statement": "For two spheres of elastic materials, Ip2_FrictMat_FrictMat_MindlinPhys gives the stiffness coefficients of Hertz and Mindlin computed from the moduli, Poisson ratios and radii, the friction angle, adhesion and rolling limits as documented; once computed they stay; the order of the two bodies does not matter.", "quantifier": "all elastic materials, radii, configurations, both orders of bodies", "why_tests_cant": "real-valued inputs; the asymmetry shows up for a single body type and order only", "anchors": ["pkg/dem/HertzMindlin.cpp: Ip2_FrictMat_FrictMat_MindlinPhys::go"]}
{"id": "C199", "title": "Damping of the contact of Mindlin is what is configured", "statement": "en/es and betan/betas are exclusive, giving both is an error; given coefficients are used for normal and shear damping respectively; a larger coefficient of restitution means less damping, 1 means none.", "quantifier": "all configurations of en, es, betan, betas, all materials and radii, repeated attempts", "why_tests_cant": "all combinations of options and repeated attempts after an error", "anchors": ["pkg/dem/HertzMindlin.cpp: Ip2_FrictMat_FrictMat_MindlinPhys::go"]}
{"id": "C200", "title": "A contact of Hertz without adhesion only repels", "statement": "Without adhesion the normal force is never attractive and equals that of Hertz if there is no damping; bodies that are apart exert no force; contacts are removed when bodies are apart unless neverErase is set; the reported forces are applied to the bodies.", "quantifier": "all states, velocities, masses, damping coefficients, time steps", "why_tests_cant": "every velocity and damping, which tests sample only", "anchors": ["pkg/dem/HertzMindlin.cpp: Law2_ScGeom_MindlinPhys_Mindlin::go, Law2_ScGeom_MindlinPhys_HertzWithLinearShear::go"]}
{"id": "C201", "title": "Attraction is limited by adhesion", "statement": "With adhesion the attractive normal force is never larger than the adhesion force.", "quantifier": "all states, velocities, masses, damping coefficients", "why_tests_cant": "every velocity and damping", "anchors": ["pkg/dem/HertzMindlin.cpp: Law2_ScGeom_MindlinPhys_Mindlin::go"]}
{"id": "C202", "title": "The shear force of the laws of Hertz obeys Coulomb friction", "statement": "The shear force never exceeds the friction coefficient times the normal force; with adhesion, times the normal force plus the adhesion force, so that tension lowers resistance.", "quantifier": "all histories, displacements, velocities and damping", "why_tests_cant": "all histories of displacements", "anchors": ["pkg/dem/HertzMindlin.cpp: Law2_ScGeom_MindlinPhys_Mindlin::go, Law2_ScGeom_MindlinPhys_HertzWithLinearShear::go"]}
{"id": "C203", "title": "Forces and moments of a contact of Hertz balance", "statement": "The forces applied to the two bodies are opposite, and the total moment about any point vanishes.", "quantifier": "all states, shifts over periods, moments of rolling and twisting", "why_tests_cant": "all geometries and velocities", "anchors": ["pkg/dem/HertzMindlin.cpp: Law2_ScGeom_MindlinPhys_Mindlin::go"]}
{"id": "C204", "title": "Energies of the contact of Mindlin accounted as dissipated never decrease", "statement": "With energies accounted, each step adds a non-negative amount to the energies dissipated by friction and by normal and shear damping.", "quantifier": "all states, velocities, coefficients", "why_tests_cant": "sign of a sum over all histories", "anchors": ["pkg/dem/HertzMindlin.cpp: Law2_ScGeom_MindlinPhys_Mindlin::go"]}
{"id": "C205", "title": "A contact kept while bodies are apart starts anew", "statement": "With neverErase, bodies that touch again behave as in a new contact.", "quantifier": "all histories before separation, all histories after", "why_tests_cant": "all histories before and after separation", "anchors": ["pkg/dem/HertzMindlin.cpp: Law2_ScGeom_MindlinPhys_Mindlin::go, Law2_ScGeom_MindlinPhys_HertzWithLinearShear::go"]}
{"id": "C206", "title": "A contact of Hertz is elastic without sliding", "statement": "While the contact does not slide, without damping, the shear force is gone when the tangential displacement is undone.", "quantifier": "all closed paths of displacements within the limit of friction", "why_tests_cant": "all closed paths", "anchors": ["pkg/dem/HertzMindlin.cpp: Law2_ScGeom_MindlinPhys_Mindlin::go, Law2_ScGeom_MindlinPhys_HertzWithLinearShear::go"]}
{"id": "C207", "title": "The bending moment of Mindlin contacts is limited", "statement": "With eta > 0 the bending moment of rolling never exceeds eta times radius times the normal force, and is the elastic one within.", "quantifier": "all histories of rotations and overlaps", "why_tests_cant": "all histories", "anchors": ["pkg/dem/HertzMindlin.cpp: Law2_ScGeom_MindlinPhys_Mindlin::go"]}
{"id": "C208", "title": "The stiffness reported by contacts of Hertz is the tangent stiffness", "statement": "kn, used for the critical time step, is the derivative of the normal force by the overlap; the elastic energy reported is its integral.", "quantifier": "all overlaps, parameters, both laws", "why_tests_cant": "a statement about derivatives at all points", "anchors": ["pkg/dem/HertzMindlin.cpp: Law2_ScGeom_MindlinPhys_Mindlin::go, Law2_ScGeom_MindlinPhys_HertzWithLinearShear::go, normElastEnergy"]}
{"id": "C209", "title": "Statistics of contacts of Mindlin count present contacts", "statement": "contactsAdhesive is the number of contacts with an attractive force, ratioSlidingContacts the share of contacts that slide.", "quantifier": "all sets of contacts, of any kind and state", "why_tests_cant": "all sets of contacts, with contacts of other kinds", "anchors": ["pkg/dem/HertzMindlin.cpp: contactsAdhesive, ratioSlidingContacts"]}
{"id": "C210", "title": "The law of Mindlin and Deresiewicz resists normal and tangential displacements", "statement": "The normal force is that of Hertz and tangential displacements are resisted by a shear force.", "quantifier": "all histories of displacements", "why_tests_cant": "all histories", "anchors": ["pkg/dem/HertzMindlin.cpp: Law2_ScGeom_MindlinPhys_MindlinDeresiewitz::go"]}
{"id": "C211", "title": "Without threads, forces read are the sums of those added", "statement": "In a build without OpenMP, reading a force, torque, move or rotation of any body gives the sum of all additions since the last reset, in the order of calls, and no call is undefined.", "quantifier": "all histories of additions, resets, syncs and readings, all ids", "why_tests_cant": "all histories of calls, with growth of the arrays at any point", "anchors": ["core/ForceContainerSerial.cpp: addForce, getForce, reset, resize, ensureSize"]}
{"id": "C212", "title": "Permanent forces count once however often forces are summed (no threads)", "statement": "In a build without OpenMP a permanent force is included once in the force of the body; asking for forces from python with sync does not change them.", "quantifier": "all histories, any number of syncs", "why_tests_cant": "depends on how often anybody asked", "anchors": ["core/ForceContainerSerial.cpp: sync, syncPermForces", "core/ForceContainer.hpp: sync", "py/wrapper/yadeWrapper.cpp: pyForceContainer::force_get"]}
{"id": "C213", "title": "Forces read for one body are those read for all (no threads)", "statement": "getForceSingle and relatives give what getForce gives after sync.", "quantifier": "all histories, all bodies, all four quantities", "why_tests_cant": "all histories with permanent values", "anchors": ["core/ForceContainerSerial.cpp: getForceSingle, getTorqueSingle, getMoveSingle, getRotSingle"]}
{"id": "C214", "title": "Unsynchronised readings give the quantity asked for (no threads)", "statement": "getForceUnsynced gives the force and getTorqueUnsynced the torque of the body.", "quantifier": "all histories, all bodies", "why_tests_cant": "all histories", "anchors": ["core/ForceContainerSerial.cpp: getForceUnsynced, getTorqueUnsynced"]}
{"id": "C215", "title": "Permanent values are those last set (no threads)", "statement": "Permanent forces and torques read are those last set since the last complete reset, zero if none, in every history of calls.", "quantifier": "all histories, all bodies", "why_tests_cant": "growth of arrays at any point of the history", "anchors": ["core/ForceContainerSerial.cpp: setPermForce, setPermTorque, getPermForce, getPermTorque, reset, resizePerm"]}
{"id": "C216", "title": "Builds with and without threads give the same forces", "statement": "The same history of calls gives the same readings in a build without OpenMP and in one with any number of threads, with exact arithmetic.", "quantifier": "all histories, all numbers of threads", "why_tests_cant": "two builds, all schedules of additions to threads", "anchors": ["core/ForceContainerSerial.cpp: ForceContainer", "core/ForceContainerParallel.cpp: ForceContainer"]}
{"id": "C217", "title": "Additions to summed forces are safe and lasting", "statement": "Forces added to the sum without synchronisation, as the integrator does for clumps, never write out of bounds, are read from then on and do not disturb other bodies.", "quantifier": "all histories of a scene, all bodies", "why_tests_cant": "all sizes of scenes and histories", "anchors": ["core/ForceContainerParallel.cpp: addForceUnsynced, addTorqueUnsynced", "pkg/dem/NewtonIntegrator.cpp: action", "core/BodyContainer.cpp: insert", "pkg/common/InsertionSortCollider.cpp: action"]}
{"id": "C218", "title": "Importing a mesh of facets makes one node per vertex and one facet per triangle", "statement": "A mesh given by triangles is imported with exactly one node for each vertex however many triangles share it, and one facet per triangle with its corners in order; bodies already there are not changed.", "quantifier": "all meshes of triangles with different corners, all scenes", "why_tests_cant": "any number of triangles sharing vertices in any way", "anchors": ["py/gridpfacet.py: gtsPFacet, pfacetCreator1, pfacetCreator3, pfacet, gridNode"]}
{"id": "C219", "title": "Edges shared by facets are connected once", "statement": "In an imported mesh each pair of nodes has at most one connection, and only edges of triangles are connected.", "quantifier": "all meshes", "why_tests_cant": "all orders in which triangles share edges", "anchors": ["py/gridpfacet.py: pfacetCreator3, gridConnection"]}
{"id": "C220", "title": "Connections and facets move with their nodes", "statement": "Wherever nodes move, connections and facets are brought to their first node and other bodies are left alone.", "quantifier": "all meshes, all motions of nodes", "why_tests_cant": "all ways of making meshes", "anchors": ["pkg/common/Grid.cpp: Ig2_GridNode_GridNode_GridNodeGeom6D::go"]}
{"id": "C221", "title": "Lists of intersections contain what makes up touching bodies, and nothing else", "statement": "What a process keeps in its list for another process are the bodies that touch the subdomain of that process with, for facets and connections, all that they are made of.", "quantifier": "all scenes, decompositions, contacts", "why_tests_cant": "all decompositions of all meshes", "anchors": ["py/mpy.py: genLocalIntersections, maskedPFacet, maskedConnection"]}
{"id": "C222", "title": "Bodies shared by facets are listed once", "statement": "No body is twice in a list of intersections, so forces sent with it are added once.", "quantifier": "all scenes, contacts", "why_tests_cant": "nodes shared by any number of facets and connections", "anchors": ["py/mpy.py: maskedPFacet, maskedConnection, genLocalIntersections, receiveForces"]}
{"id": "C223", "title": "A process lists only its own bodies for other workers", "statement": "Bodies in the lists that a process keeps for other workers belong to that process.", "quantifier": "all scenes, contacts", "why_tests_cant": "all decompositions", "anchors": ["py/mpy.py: genLocalIntersections, sendRecvStates"]}
{"id": "C224", "title": "Erasing remote bodies leaves no facet without its parts", "statement": "After a worker has erased bodies it does not need, everything a remaining facet or connection is made of remains.", "quantifier": "all scenes, decompositions, lists received", "why_tests_cant": "all decompositions and sets of contacts", "anchors": ["py/mpy.py: splitScene, ERASE_REMOTE, reboundRemoteBodies, unboundRemoteBodies"]}
{"id": "C225", "title": "Splitting and merging restores which bodies are bounded", "statement": "After splitting the scene among processes and merging it, bodies are bounded if and only if they were before.", "quantifier": "all scenes, any number of processes", "why_tests_cant": "all shapes and owners", "anchors": ["py/mpy.py: splitScene, mergeScene, unboundRemoteBodies, reboundRemoteBodies", "py/gridpfacet.py: pfacet"]}
{"id": "C226", "title": "Damping of a contact is the fraction of critical damping of the materials", "statement": "A new contact between materials with damping has as damping coefficient the critical one (twice the root of stiffness times reduced mass) times the mean fraction of both, or that of the only one which has any; parameters do not depend on the order of bodies.", "quantifier": "all materials, masses, radii, matchmakers", "why_tests_cant": "all pairs of materials and orders", "anchors": ["pkg/dem/FrictViscoPM.cpp: Ip2_FrictViscoMat_FrictViscoMat_FrictViscoPhys::go, Ip2_FrictMat_FrictViscoMat_FrictViscoPhys::go"]}
{"id": "C227", "title": "Parameters of a damped contact are numbers", "statement": "A contact between bodies of materials with positive stiffness has stiffnesses, friction and damping which are numbers, damping not being negative.", "quantifier": "all materials, masses, kinds of bodies", "why_tests_cant": "all kinds of bodies, including those without mass", "anchors": ["pkg/dem/FrictViscoPM.cpp: Ip2_FrictViscoMat_FrictViscoMat_FrictViscoPhys::go"]}
{"id": "C228", "title": "Without damping it is the frictional contact", "statement": "A step of a contact with zero damping has the same effects as that of a frictional contact without damping: forces, torques, state of the contact, energies.", "quantifier": "all geometries, contacts, configurations of the law", "why_tests_cant": "all states of both laws", "anchors": ["pkg/dem/FrictViscoPM.cpp: Law2_ScGeom_FrictViscoPhys_CundallStrackVisco::go", "pkg/dem/ElasticContactLaw.cpp: Law2_ScGeom_FrictPhys_CundallStrack::go"]}
{"id": "C229", "title": "The dashpot resists with its coefficient times velocity", "statement": "The viscous force of a contact is the damping coefficient times the velocity along the normal, and never gives energy to bodies.", "quantifier": "all geometries, velocities", "why_tests_cant": "all overlaps and velocities", "anchors": ["pkg/dem/FrictViscoPM.cpp: Law2_ScGeom_FrictViscoPhys_CundallStrackVisco::go", "pkg/dem/ScGeom.cpp: getIncidentVel"]}
{"id": "C230", "title": "A contact with damping never attracts", "statement": "The normal force of a cohesionless contact with damping never pulls bodies together.", "quantifier": "all geometries, velocities, coefficients", "why_tests_cant": "all velocities", "anchors": ["pkg/dem/FrictViscoPM.cpp: Law2_ScGeom_FrictViscoPhys_CundallStrackVisco::go"]}
{"id": "C231", "title": "Bodies which are apart feel nothing", "statement": "If contacts are never erased, bodies which are apart have no force from them.", "quantifier": "all geometries, velocities", "why_tests_cant": "all velocities at a distance", "anchors": ["pkg/dem/FrictViscoPM.cpp: Law2_ScGeom_FrictViscoPhys_CundallStrackVisco::go"]}
{"id": "C232", "title": "Friction is limited by the elastic normal force", "statement": "The shear force is at most friction times the elastic normal force; else it is reduced to the nearest such force, and energy lost is not negative.", "quantifier": "all geometries, velocities, old shear forces", "why_tests_cant": "all velocities", "anchors": ["pkg/dem/FrictViscoPM.cpp: Law2_ScGeom_FrictViscoPhys_CundallStrackVisco::go"]}
{"id": "C233", "title": "Elastic energy of damped contacts is that of springs", "statement": "The elastic energy reported for a contact is that stored in its springs.", "quantifier": "all geometries, velocities", "why_tests_cant": "all velocities", "anchors": ["pkg/dem/FrictViscoPM.cpp: elasticEnergy, Law2_ScGeom_FrictViscoPhys_CundallStrackVisco::go"]}
{"id": "C234", "title": "Damped contacts balance forces and moments", "statement": "A step adds opposite forces to both bodies, whose moments about any point are balanced.", "quantifier": "all geometries, configurations of the law, points", "why_tests_cant": "all geometries", "anchors": ["pkg/dem/FrictViscoPM.cpp: Law2_ScGeom_FrictViscoPhys_CundallStrackVisco::go"]}
{"id": "C235", "title": "Inverting the integral of a line", "statement": "For a line through two points and an area, the returned point is in the interval and has that area to its left; an error is raised if and only if there is no such point or it is not unique.", "quantifier": "all lines, all areas", "why_tests_cant": "all real slopes, heights and areas", "anchors": ["py/linterpolation.py: revIntegrateLinear"]}
{"id": "C236", "title": "The integral of a piecewise-linear function is its area", "statement": "The integral of a piecewise-linear function is the area under it, for any number of points; lists of different lengths are an error.", "quantifier": "all functions with increasing abscissae", "why_tests_cant": "all numbers of points", "anchors": ["py/linterpolation.py: integral"]}
{"id": "C237", "title": "Finding the point with a given area", "statement": "For a given area the returned point is within the range and has that area to its left; an error is raised if and only if the area is not reached in the range.", "quantifier": "all functions, areas", "why_tests_cant": "all numbers of points and all areas", "anchors": ["py/linterpolation.py: xFractionalFromIntegral"]}
{"id": "C238", "title": "Finding the point with a given area of a periodic function", "statement": "For a periodic function with area, the point with a given area is found for any area, of any number of periods.", "quantifier": "all functions, areas, numbers of periods", "why_tests_cant": "all periods, past and future", "anchors": ["py/linterpolation.py: xFromIntegral"]}
{"id": "C239", "title": "Sanitizing a function extends it by constants", "statement": "Sanitizing extends the abscissae to span the wanted interval, leaves the values of the function the same everywhere in its former range, and adds constant padding.", "quantifier": "all functions, intervals", "why_tests_cant": "all positions of intervals relative to the range", "anchors": ["py/linterpolation.py: sanitizeInterpolation"]}
{"id": "C240", "title": "The grid collider finds all pairs that meet", "statement": "Once the flat grid collider has run, any two spheres which touch when enlarged by the verlet distance, and which may collide, have an interaction, wherever they are, inside or outside the grid.", "quantifier": "all grids, positions, radii, verlet distances, former interactions", "why_tests_cant": "all positions relative to cells and all corners of grids", "anchors": ["pkg/dem/FlatGridCollider.cpp: action, updateBodyCells, updateCollisions", "pkg/dem/FlatGridCollider.hpp: Grid::pt2int"]}
{"id": "C241", "title": "An interaction found by the grid collider survives the step", "statement": "An interaction between spheres that touch is still there after the interaction loop has removed interactions which the collider did not see.", "quantifier": "all grids, positions, former interactions", "why_tests_cant": "all numbers of shared cells", "anchors": ["pkg/dem/FlatGridCollider.cpp: updateCollisions", "pkg/common/InteractionLoop.cpp: action", "core/Interaction.hpp: iterLastSeen"]}
{"id": "C242", "title": "The grid collider is safe for any positions", "statement": "The memory of the grid is never accessed out of bounds; an exception is thrown exactly if there is no integrator, the step or the volume of the grid is not positive, or a body has a shape that is not a sphere.", "quantifier": "all grids, bodies", "why_tests_cant": "all positions, also outside the grid", "anchors": ["pkg/dem/FlatGridCollider.cpp: action, updateGrid, updateBodyCells", "pkg/dem/FlatGridCollider.hpp: Grid"]}
{"id": "C243", "title": "The grid collider need not run until bodies have moved by the verlet distance", "statement": "As long as the collider says that it does not need to run, all spheres which touch have had an interaction since its last run.", "quantifier": "all histories of velocities and time steps between runs", "why_tests_cant": "unbounded number of steps", "anchors": ["pkg/dem/FlatGridCollider.cpp: isActivated, action"]}
{"id": "C244", "title": "The grid collider neither loses nor doubles interactions", "statement": "A run of the collider keeps all interactions, changes nothing of them except when they were last seen, and adds at most one for a pair that may collide and had none, never of a body with itself.", "quantifier": "all lists of interactions, all grids", "why_tests_cant": "all orders of cells and ids", "anchors": ["pkg/dem/FlatGridCollider.cpp: updateCollisions"]}
{"id": "C245", "title": "The grid collider does not join distant spheres", "statement": "New interactions, and those newly seen, join spheres inside the grid whose enlarged surfaces are not farther from each other than the diagonal of a cell.", "quantifier": "all grids, positions, radii", "why_tests_cant": "all positions relative to cells", "anchors": ["pkg/dem/FlatGridCollider.cpp: updateBodyCells, updateCollisions"]}
{"id": "C246", "title": "A mortar layer has symmetric, positive properties", "statement": "The layer of mortar between two bodies does not depend on their order; its strengths are the smaller of the two, its stiffness is the harmonic mean and positive for positive moduli, also if only one of the bodies has a radius.", "quantifier": "all materials, radii and iterations", "why_tests_cant": "all combinations of materials, labels and radii", "anchors": ["pkg/dem/MortarMat.cpp: Ip2_MortarMat_MortarMat_MortarPhys::go"]}
{"id": "C247", "title": "Cohesion only before the threshold iteration", "statement": "Contacts of mortar made from iteration cohesiveThresholdIter on have no cohesion, as documented.", "quantifier": "all iterations, thresholds and materials", "why_tests_cant": "all iterations", "anchors": ["pkg/dem/MortarMat.cpp: Ip2_MortarMat_MortarMat_MortarPhys::go", "pkg/dem/MortarMat.hpp: cohesiveThresholdIter"]}
{"id": "C248", "title": "Mortar stays within its envelope", "statement": "A mortar layer survives a step exactly if it is declared never damaged or its stresses are within the documented tension cut-off, friction line and compression cap; thus a layer which survived any history has never left its envelope, and proportional unloading or less shear can not break it.", "quantifier": "all layers, stresses and histories of geometry", "why_tests_cant": "all histories and stress states", "anchors": ["pkg/dem/MortarMat.cpp: Law2_ScGeom_MortarPhys_Lourenco::go, MortarPhys::failureCondition"]}
{"id": "C249", "title": "Mortar obeys the balance of momentum", "statement": "Forces and moments of a mortar layer add no momentum and no angular momentum, in periodic scenes too; a broken layer adds nothing.", "quantifier": "all layers, geometries and positions", "why_tests_cant": "all geometries", "anchors": ["pkg/dem/MortarMat.cpp: Law2_ScGeom_MortarPhys_Lourenco::go"]}
{"id": "C250", "title": "Common parameters are between those of the materials", "statement": "Each parameter of a contact of Luding's type is between those of the two materials (their harmonic mean), whatever their order.", "quantifier": "all pairs of materials", "why_tests_cant": "all values, zero included", "anchors": ["pkg/dem/LudingPM.cpp: Ip2_LudingMat_LudingMat_LudingPhys::go, reduced"]}
{"id": "C251", "title": "Valid materials make contacts", "statement": "Two bodies whose materials have k1 < kp make a contact with finite parameters; an error is only for materials with k1 >= kp.", "quantifier": "all pairs of materials and bodies", "why_tests_cant": "all materials and shapes", "anchors": ["pkg/dem/LudingPM.cpp: Ip2_LudingMat_LudingMat_LudingPhys::go"]}
{"id": "C252", "title": "First loading is on the lines of the law", "statement": "On first loading the force is k1 times the overlap up to the plastic limit, and beyond it kp times the overlap minus the one at rest, whatever the steps.", "quantifier": "all materials, radii and growing sequences of overlaps", "why_tests_cant": "all step sizes", "anchors": ["pkg/dem/LudingPM.cpp: Law2_ScGeom_LudingPhys_Basic::go"]}
{"id": "C253", "title": "Forces stay between the lines of loading and adhesion", "statement": "For every history of overlaps the force is at most k1 times the overlap (kp times it beyond the plastic limit) and attraction is at most kc times the overlap.", "quantifier": "all sound contacts and all histories of overlaps", "why_tests_cant": "all histories", "anchors": ["pkg/dem/LudingPM.cpp: Law2_ScGeom_LudingPhys_Basic::go"]}
{"id": "C254", "title": "Unloading depends on the largest overlap only", "statement": "Force on unloading depends on the overlap and the largest overlap that was reached, not on the steps in which it was reached.", "quantifier": "all sound contacts and histories", "why_tests_cant": "all histories", "anchors": ["pkg/dem/LudingPM.cpp: Law2_ScGeom_LudingPhys_Basic::go"]}
{"id": "C255", "title": "Friction and balance of contacts of Luding", "statement": "The tangential force is within Coulomb's limit, forces and moments add no momentum and no angular momentum, and the contact is erased exactly if the bodies do not overlap.", "quantifier": "all contacts, geometries, velocities, time steps, periodic images", "why_tests_cant": "all states", "anchors": ["pkg/dem/LudingPM.cpp: Law2_ScGeom_LudingPhys_Basic::go"]}
{"id": "C256", "title": "Force of a wire depends on the largest elongation only", "statement": "Within its limit, the force of a wire is that of its curve at the largest elongation so far, less elastic unloading from there, without compression, whatever the steps.", "quantifier": "all wires, all histories of displacements", "why_tests_cant": "all histories", "anchors": ["pkg/dem/WirePM.cpp: Law2_ScGeom_WirePhys_WirePM::go"]}
{"id": "C257", "title": "A wire holds up to the last point of its curve", "statement": "A wire has the force of its curve up to and including the last point; beyond, it breaks for ever, and both bodies count one broken link.", "quantifier": "all wires, displacements and histories", "why_tests_cant": "the exact limit is rarely hit by tests", "anchors": ["pkg/dem/WirePM.cpp: Law2_ScGeom_WirePhys_WirePM::go"]}
{"id": "C258", "title": "A wire only pulls, within its curve", "statement": "The force of a wire is never compressive, never more than that of the curve, zero if the wire is not longer than at first, and the limit factor is between 0 and 1.", "quantifier": "all wires and histories", "why_tests_cant": "all curves and histories", "anchors": ["pkg/dem/WirePM.cpp: Law2_ScGeom_WirePhys_WirePM::go"]}
{"id": "C259", "title": "The curve of a wire is that of its material", "statement": "The curve of a wire goes through all points of the table of its material, strain times length and stress times area, with twice the area and its own table for double twists, and with random shift from its start.", "quantifier": "all materials, tables, lengths, ids and random numbers", "why_tests_cant": "all tables", "anchors": ["pkg/dem/WirePM.cpp: Ip2_WireMat_WireMat_WirePhys::go"]}
{"id": "C260", "title": "Wires do not depend on the order of bodies", "statement": "The wire between two bodies is the same if the bodies are exchanged; for different materials it is the weaker one.", "quantifier": "all pairs of materials", "why_tests_cant": "all pairs", "anchors": ["pkg/dem/WirePM.cpp: Ip2_WireMat_WireMat_WirePhys::go"]}
{"id": "C261", "title": "Accepted materials make wires", "statement": "A wire material which is accepted makes wires with finite stiffness and an area that fits its diameter.", "quantifier": "all materials and changes of attributes", "why_tests_cant": "all tables", "anchors": ["pkg/dem/WirePM.cpp: WireMat::postLoad", "pkg/dem/WirePM.hpp: WireMat"]}
{"id": "C262", "title": "Wires obey the balance of momentum", "statement": "Forces of a wire add no momentum and no angular momentum, in periodic scenes too, and pull both ends towards each other.", "quantifier": "all wires, geometries, positions", "why_tests_cant": "all geometries", "anchors": ["pkg/dem/WirePM.cpp: Law2_ScGeom_WirePhys_WirePM::go"]}
{"id": "C263", "title": "Inelastic contacts remember the largest deformation", "statement": "While a new inelastic contact is only pulled, or only pressed, within its limits of failure, its force is that of its curve (elastic up to the elastic limit, then creeping) at the largest deformation so far, less unloading from there, whatever the steps.", "quantifier": "all contacts, all histories of penetration depths on one side", "why_tests_cant": "every history of depths", "anchors": ["pkg/dem/InelastCohFrictPM.cpp: Law2_ScGeom6D_InelastCohFrictPhys_CohesionMoment::go"]}
{"id": "C264", "title": "The force of an inelastic contact has no jumps", "statement": "A small displacement changes the normal force of an unbroken contact by little, also when it passes its equilibrium.", "quantifier": "all contacts, all histories", "why_tests_cant": "every history and every small displacement", "anchors": ["pkg/dem/InelastCohFrictPM.cpp: Law2_ScGeom6D_InelastCohFrictPhys_CohesionMoment::go"]}
{"id": "C265", "title": "Plastic forces do not exceed elastic ones", "statement": "With creeping coefficients between 0 and 1, the force of a contact on plastic loading is not larger than it were without plasticity.", "quantifier": "all contacts with coefficients between 0 and 1, all histories", "why_tests_cant": "every history and stiffness", "anchors": ["pkg/dem/InelastCohFrictPM.cpp: Ip2_2xInelastCohFrictMat_InelastCohFrictPhys::go, Law2_ScGeom6D_InelastCohFrictPhys_CohesionMoment::go"]}
{"id": "C266", "title": "Broken inelastic contacts stay broken", "statement": "A contact breaks exactly when stretched or shortened beyond its limits, has no force or moment ever after, and is not erased while its spheres overlap (it would be made anew).", "quantifier": "all contacts, states and histories", "why_tests_cant": "every history", "anchors": ["pkg/dem/InelastCohFrictPM.cpp: Law2_ScGeom6D_InelastCohFrictPhys_CohesionMoment::go"]}
{"id": "C267", "title": "Shear of inelastic contacts is limited", "statement": "The shear force is never larger than the elastic one, nor than the adhesion of a cohesive contact, nor than the friction of a contact whose cohesion is broken.", "quantifier": "all contacts, geometries and histories", "why_tests_cant": "every history", "anchors": ["pkg/dem/InelastCohFrictPM.cpp: Law2_ScGeom6D_InelastCohFrictPhys_CohesionMoment::go"]}
{"id": "C268", "title": "Contacts without cohesion have no moments", "statement": "Rotational moments are only applied while the cohesion is not broken, whatever broke it.", "quantifier": "all contacts and histories", "why_tests_cant": "every history", "anchors": ["pkg/dem/InelastCohFrictPM.cpp: Law2_ScGeom6D_InelastCohFrictPhys_CohesionMoment::go"]}
{"id": "C269", "title": "Twist is the same in both senses", "statement": "The twist moment is elastic within its limit, creeps beyond, unloads with its own stiffness, and is released when the cohesion breaks; twisting in the other sense gives the opposite moments.", "quantifier": "all states of the contact, all twists", "why_tests_cant": "every state and twist", "anchors": ["pkg/dem/InelastCohFrictPM.cpp: Law2_ScGeom6D_InelastCohFrictPhys_CohesionMoment::go"]}
{"id": "C270", "title": "Inelastic contacts are made of two materials in either order", "statement": "Stiffnesses and limits of a contact do not depend on the order of the materials, lie between those of the two, and are finite numbers.", "quantifier": "all pairs of materials and radii", "why_tests_cant": "every pair", "anchors": ["pkg/dem/InelastCohFrictPM.cpp: Ip2_2xInelastCohFrictMat_InelastCohFrictPhys::go"]}
{"id": "C271", "title": "Inelastic contacts obey the balance of momentum", "statement": "Forces and moments of an inelastic contact add no momentum and no angular momentum.", "quantifier": "all states, geometries, positions", "why_tests_cant": "every state", "anchors": ["pkg/dem/InelastCohFrictPM.cpp: Law2_ScGeom6D_InelastCohFrictPhys_CohesionMoment::go"]}
{"id": "C272", "title": "Slaves of a parallel engine are what was assigned", "statement": "The slaves read from a ParallelEngine are those assigned, assigning them again changes nothing, and an assignment that raises an error leaves the former ones.", "quantifier": "all lists of engines, groups and other objects", "why_tests_cant": "every list", "anchors": ["pkg/common/ParallelEngine.cpp: slaves_set, slaves_get"]}
{"id": "C273", "title": "Engines run in parallel give the same result as one after another", "statement": "The state after a ParallelEngine does not depend on the threads that ran its groups.", "quantifier": "all groups of engines, states and schedules", "why_tests_cant": "every interleaving", "anchors": ["pkg/common/ParallelEngine.cpp: action"]}
{"id": "C274", "title": "A parallel engine runs each of its engines once", "statement": "In one step each engine of a ParallelEngine is run once, in the order of its group, if it is neither dead nor inactive, for every schedule.", "quantifier": "all groups and schedules", "why_tests_cant": "every interleaving", "anchors": ["pkg/common/ParallelEngine.cpp: action"]}
{"id": "C275", "title": "All classes get a python class, after their bases", "statement": "At startup each class is made known to python once and after its base, whatever the order of plugins.", "quantifier": "all orders and depths of the hierarchy", "why_tests_cant": "every order and depth", "anchors": ["core/Omega.cpp: buildDynlibDatabase"]}
{"id": "C276", "title": "isChildClassOf tells whether a class derives from another", "statement": "O.isChildClassOf(a,b) is true just if a derives from b through any number of bases.", "quantifier": "all hierarchies without cycles, all names", "why_tests_cant": "every hierarchy", "anchors": ["core/Omega.cpp: isInheritingFrom_recursive", "py/wrapper/yadeWrapper.cpp: isChildClassOf"]}
{"id": "C277", "title": "Questions about classes change nothing", "statement": "After any number of questions about classes the list of classes and their bases are what they were.", "quantifier": "all histories of questions", "why_tests_cant": "every history", "anchors": ["core/Omega.cpp: isInheritingFrom, isInheritingFrom_recursive", "py/wrapper/yadeWrapper.cpp: plugins_get"]}
{"id": "C278", "title": "childClasses lists the classes deriving from a class", "statement": "system.childClasses(b) is the set of all classes for which isChildClassOf(a,b) holds.", "quantifier": "all hierarchies without cycles", "why_tests_cant": "every hierarchy", "anchors": ["py/system.py: childClasses", "py/wrapper/yadeWrapper.cpp: listChildClassesNonrecursive"]}
{"id": "C279", "title": "The database of classes agrees with the classes", "statement": "A class derives from another in the database just if it is declared so, for all plugins that can be made, and plugins that cannot are skipped.", "quantifier": "all plugins and declarations of bases", "why_tests_cant": "every hierarchy", "anchors": ["core/Omega.cpp: buildDynlibDatabase"]}
{"id": "C280", "title": "All common vertices of facets are found", "statement": "FacetTopologyAnalyzer finds all pairs of vertices of facets that are closer than the tolerance, whatever the axis of projection and the orientations.", "quantifier": "all facets, axes, tolerances, orders of equal projections", "why_tests_cant": "every arrangement", "anchors": ["pkg/dem/FacetTopologyAnalyzer.cpp: action"]}
{"id": "C281", "title": "Vertices that touch are one vertex", "statement": "After the analysis vertices have the same number just if they touch, and commonVerticesFound is the count of different ones.", "quantifier": "all sets of touching pairs", "why_tests_cant": "every set", "anchors": ["pkg/dem/FacetTopologyAnalyzer.cpp: action"]}
{"id": "C282", "title": "All common edges of facets are found", "statement": "Every pair of facets with two common vertices is found once, and commonEdgesFound is their count.", "quantifier": "all lists of facets, orders of equal least vertices", "why_tests_cant": "every list", "anchors": ["pkg/dem/FacetTopologyAnalyzer.cpp: action"]}
{"id": "C283", "title": "Edges of facets know the neighbour", "statement": "edgeAdjIds of an edge is the facet at its other side, and is unset for edges without a neighbour.", "quantifier": "all lists of facets", "why_tests_cant": "every list", "anchors": ["pkg/dem/FacetTopologyAnalyzer.cpp: action", "pkg/common/Facet.hpp: edgeAdjIds"]}
{"id": "C284", "title": "Recorders lose no row", "statement": "Each row that a recorder writes is in its file afterwards, in order, whatever the settings; with numbers of steps each is in the file of its step.", "quantifier": "all histories of steps, settings and former files", "why_tests_cant": "every history", "anchors": ["pkg/common/Recorder.hpp: openAndCheck, isActivated", "pkg/dem/ForceTorqueRecorder.cpp: ForceRecorder::action, TorqueRecorder::action"]}
{"id": "C285", "title": "Recorded forces and torques are those of the bodies", "statement": "ForceRecorder writes the sum of forces on its bodies, TorqueRecorder the sum of their torques and of the moments of their forces about the axis.", "quantifier": "all bodies, forces, axes", "why_tests_cant": "every state", "anchors": ["pkg/dem/ForceTorqueRecorder.cpp: ForceRecorder::action, TorqueRecorder::action"]}
{"id": "C286", "title": "Elastic contacts have the harmonic average of stiffnesses", "statement": "Normal and shear stiffness of an elastic contact are harmonic averages of those of the bodies, in either order and for every geometry.", "quantifier": "all materials, radii and geometries", "why_tests_cant": "every pair", "anchors": ["pkg/dem/Ip2_ElastMat.cpp: go"]}
{"id": "C287", "title": "The force of bubbles grows smoothly with the overlap", "statement": "The force between bubbles has no jump and no kink where the exponential takes over, and it grows with the overlap.", "quantifier": "all fractions, tensions, radii, overlaps", "why_tests_cant": "every value", "anchors": ["pkg/dem/BubbleMat.cpp: BubblePhys::computeCoeffs, BubblePhys::computeForce"]}
{"id": "C288", "title": "The force of bubbles is a solution or an error", "statement": "computeForce returns a positive solution within the tolerance or raises an error.", "quantifier": "all overlaps, starting forces, tolerances and numbers of iterations", "why_tests_cant": "every iteration", "anchors": ["pkg/dem/BubbleMat.cpp: BubblePhys::computeForce"]}
{"id": "C289", "title": "Contacts of bubbles survive saving", "statement": "A simulation of bubbles that was saved and loaded goes on as before; contacts end with the overlap; forces are balanced.", "quantifier": "all histories of overlaps, with saving at any time", "why_tests_cant": "every history and time of saving", "anchors": ["pkg/dem/BubbleMat.cpp: Law2_ScGeom_BubblePhys_Bubble::go", "pkg/dem/BubbleMat.hpp: coeffA, coeffB, c1"]}
{"id": "C290", "title": "Points given to an average are kept", "statement": "Each point added to a GaussAverage that is not clipped is kept once, in the cell around it, and returned by data; clipped ones change nothing.", "quantifier": "all grids, points and polygons", "why_tests_cant": "every list of points", "anchors": ["lib/smoothing/WeightedAverage2d.hpp: GridContainer::add, GridContainer::xy2cell, pyGaussAverage::addPt, pyGaussAverage::ptIsClipped, pyGaussAverage::data_get"]}
{"id": "C291", "title": "An average takes all points within its radius", "statement": "The sums of an average are over all points within the radius, each counted once.", "quantifier": "all grids, points, centres and radii", "why_tests_cant": "every list of points", "anchors": ["lib/smoothing/WeightedAverage2d.hpp: GridContainer::rectangleFilter, GridContainer::ellipseFilter, WeightedAverage::sumValuesWeights"]}
{"id": "C292", "title": "Averages follow their parameters", "statement": "The average is between the least and the greatest value; weights and area are those of the current deviation and threshold.", "quantifier": "all points, weights, deviations and thresholds", "why_tests_cant": "every list of points and history of settings", "anchors": ["lib/smoothing/WeightedAverage2d.hpp: WeightedAverage::computeAverage, WeightedAverage::computeAvgPerUnitArea, SGDA_Scalar2d::getWeight, pyGaussAverage::stDev_set, pyGaussAverage::relThreshold_set"]}
