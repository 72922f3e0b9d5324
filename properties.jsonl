{"id": "C01", "title": "nEq/nIn count exactly the hard constraint rows", "statement": "After any sequence of formulation calls with proper names that removes no priority-0 force task, nEq() is the total number of rows of the equality constraints in priority level 0 of the HQP data and nIn() is the total number of rows of the other constraints in level 0. (Removing a priority-0 force task leaves its rows counted; this is refuted separately.)", "quantifier": "every finite history of add/remove/update/compute/decode calls on one formulation object, every robot size, task size, weight, level and name", "why_tests_cant": "tests exercise a handful of add/remove sequences; the counters are incremental and can drift only on particular interleavings", "anchors": ["src/formulations/inverse-dynamics-formulation-acc-force.cpp: addTask, addActuationTask, addRigidContact, removeTask, removeRigidContact, nEq, nIn"]}
{"id": "C02", "title": "Every constraint of the HQP has nVar columns", "statement": "After any sequence of formulation calls nVar() equals nv plus the summed force sizes of the contacts present, and every constraint of every level of the HQP data has exactly nVar() columns.", "quantifier": "every finite history of formulation calls", "why_tests_cant": "a column mismatch appears only for specific orders of adding tasks and contacts; a solver reads all blocks with one common n", "anchors": ["src/formulations/inverse-dynamics-formulation-acc-force.cpp: resizeHqpData, addTask, addRigidContact, removeRigidContact, nVar"]}
{"id": "C03", "title": "Contact force slots tile the force vector", "statement": "After any history the force segments of the contacts present are consecutive, pairwise disjoint and cover the whole contact force vector, in the order in which the contacts were added.", "quantifier": "every finite history of formulation calls, every number and size of contacts", "why_tests_cant": "re-indexing after removal is only exercised for one or two contacts", "anchors": ["src/formulations/inverse-dynamics-formulation-acc-force.cpp: addRigidContact, removeRigidContact, getContactForces"]}
{"id": "C04", "title": "Adding then removing a task is a no-op on the problem", "statement": "From any reachable state (proper names), adding a motion or actuation task, or a force task below level 0, with a fresh name and removing it by name restores nVar, nEq, nIn and the list of weighted constraints of every level (contents, weights, order), the contact slots and the task lists. (False for a priority-0 force task: refuted separately.)", "quantifier": "every reachable state, every task kind, size, weight and admissible level", "why_tests_cant": "tests check one state; the claim needs every state from which the pair is executed", "anchors": ["src/formulations/inverse-dynamics-formulation-acc-force.cpp: addMotionTask, addForceTask, addActuationTask, removeTask, removeFromHqpData"]}
{"id": "C05", "title": "Adding then removing a contact is a no-op on the problem", "statement": "From any state reachable by well-formed calls, adding a contact with a fresh name and removing it without transition restores nVar, nEq, nIn, the contacts and their indices and the list of weighted constraints of every level (names, kinds, sizes, weights, order).", "quantifier": "every reachable state, every contact size, motion priority and weight", "why_tests_cant": "tests check one state", "anchors": ["src/formulations/inverse-dynamics-formulation-acc-force.cpp: addRigidContact, removeRigidContact"]}
{"id": "C06", "title": "Removal by name does not touch anything else", "statement": "removeTask(name) returning normally deletes at most one constraint, the first whose name equals the argument, and leaves every other constraint, weight, level, order, contact slot, measured force and pending transition unchanged; nothing named differently is deleted. For a name that is not one of the formulation's internal names the result is true iff a constraint of that name was present. (An internal name deletes the internal constraint and returns false: refuted separately.)", "quantifier": "every reachable state and every name", "why_tests_cant": "tests look only at the removed task, not at the frame", "anchors": ["src/formulations/inverse-dynamics-formulation-acc-force.cpp: removeTask, removeFromHqpData"]}
{"id": "C07", "title": "updateTaskWeight changes exactly the requested weight", "statement": "updateTaskWeight(name,w) returns true iff some constraint of that name lives in a level >= 1; then the weight of the first such constraint becomes w and everything else is unchanged; otherwise nothing changes.", "quantifier": "every state, name and weight", "why_tests_cant": "frame condition over arbitrary problems", "anchors": ["src/formulations/inverse-dynamics-formulation-acc-force.cpp: updateTaskWeight"]}
{"id": "C08", "title": "updateRigidContactWeights reports what it did", "statement": "updateRigidContactWeights changes exactly the weights of the force-regularisation and motion constraints of that contact in the levels 1 and up, each only if the given weight is non-negative, and returns true iff the force-regularisation constraint is present and the motion constraint is in a level >= 1 or the motion weight is negative. (So false does not mean that nothing was changed: refuted separately.)", "quantifier": "every state, contact name and pair of weights", "why_tests_cant": "depends on the motion priority chosen when the contact was added", "anchors": ["src/formulations/inverse-dynamics-formulation-acc-force.cpp: updateRigidContactWeights"]}
{"id": "C09", "title": "Any priority level accepted by the API is handled safely", "statement": "addMotionTask/addForceTask/addActuationTask/addRigidContact store the task at the requested priority level without touching memory outside the level list for the levels 0 and 1; every level from 2 on is an out-of-bounds access, in every reachable state.", "quantifier": "every priority level and every state", "why_tests_cant": "tests only use levels 0 and 1; the first failing value is level = number of levels", "anchors": ["src/formulations/inverse-dynamics-formulation-acc-force.cpp: addTask, addActuationTask, addRigidContact"]}
{"id": "C10", "title": "Computed problem data depend only on what is present now", "statement": "computeProblemData fills the HQP with the matrices of the tasks and contacts present at that moment, in their slots, and zeros elsewhere: two formulations with the same tasks, contacts and measured forces present and the same robot data hold the same problem after the computation, whatever was called before (as long as a force task keeps its associated contact).", "quantifier": "every history of calls before the computation, every robot state", "why_tests_cant": "stale columns appear only after specific reconfiguration histories", "anchors": ["src/formulations/inverse-dynamics-formulation-acc-force.cpp: computeProblemData, resizeHqpData"]}
{"id": "C11", "title": "Level-0 feasibility is physical feasibility", "statement": "A vector x satisfies all level-0 constraints of the computed HQP iff its acceleration and force parts satisfy the floating-base dynamics rows, every level-0 task on the acceleration, every contact motion constraint of level 0, every contact force constraint on that contact's own force, and every level-0 actuation/force task stated on joint torques/contact forces.", "quantifier": "every problem (any number of tasks/contacts), every robot data, every x", "why_tests_cant": "the equivalence quantifies over all x and all problems", "anchors": ["src/formulations/inverse-dynamics-formulation-acc-force.cpp: computeProblemData"]}
{"id": "C12", "title": "Decoded torques satisfy the full equations of motion", "statement": "For the x handed to the getters after a computation, accelerations dv, forces f and torques tau returned satisfy tau = M_a dv + h_a - (J_c^T f)_a - (external torque)_a, and if x satisfies the base dynamics constraint then M dv + h - h_ext = S^T tau + J_c^T f on all nv rows.", "quantifier": "every robot data, contact set and x", "why_tests_cant": "numerical tests sample some configurations with tolerances", "anchors": ["src/formulations/inverse-dynamics-formulation-acc-force.cpp: computeProblemData, decodeSolution, getActuatorForces"]}
{"id": "C13", "title": "Actuation tasks constrain the torques that will be applied", "statement": "x satisfies the constraint generated for an actuation task (equality, inequality or bound) iff the torque decoded from x satisfies the task's own constraint.", "quantifier": "every actuation task, robot data, contact set and x", "why_tests_cant": "equivalence over all x", "anchors": ["src/formulations/inverse-dynamics-formulation-acc-force.cpp: computeProblemData, decodeSolution", "src/tasks/task-actuation-equality.cpp", "src/tasks/task-actuation-bounds.cpp"]}
{"id": "C14", "title": "Getters decode the solution they are given", "statement": "After a computation, getAccelerations/getContactForces/getActuatorForces(sol), called any number of times in any order with the same sol of nVar entries, return the values encoded in sol. (A different sol before the next computation is ignored: refuted separately.)", "quantifier": "every sequence of compute/get calls with arbitrary solutions", "why_tests_cant": "the decoded values are cached in the object; only sequences with two different solutions reveal it", "anchors": ["src/formulations/inverse-dynamics-formulation-acc-force.cpp: decodeSolution, getAccelerations, getActuatorForces, getContactForces"]}
{"id": "C15", "title": "getContactForces(name) returns that contact's force", "statement": "After a computation, getContactForces(name, sol) is the slice of sol belonging to the contact of that name (the slices are disjoint by C03), and an unknown name yields an empty vector. (A contact added after the solution was decoded reads outside the decoded vector: refuted separately.)", "quantifier": "every history, name and solution", "why_tests_cant": "index arithmetic over arbitrary contact histories", "anchors": ["src/formulations/inverse-dynamics-formulation-acc-force.cpp: getContactForces"]}
{"id": "C16", "title": "Contact removal transition keeps the force bound in range", "statement": "While a contact is being removed with a transition, each computation sets its maximum normal force to the linear interpolation between the bound at the start and minimum+1e-3; the value stays between the two end values and not below the minimum and the computation does not throw, provided the force at the start is not below the minimum, the minimum is not moved meanwhile and time does not run backwards. (With a smaller start force the computation throws: refuted separately.)", "quantifier": "every transition start force, duration, and sequence of computation times within the transition", "why_tests_cant": "bounds over all times and start forces", "anchors": ["src/formulations/inverse-dynamics-formulation-acc-force.cpp: removeRigidContact, computeProblemData", "src/contacts/contact-6d.cpp: setMaxNormalForce"]}
{"id": "C17", "title": "Contact removal transition completes", "statement": "After removeRigidContact(name, T) with T>0, the first computation at a time later than start+T, at which no earlier-scheduled transition is over as well, removes the contact and its three constraints and forgets the transition; n pending transitions that are over are completed by n computations. (One computation completes one transition only; an immediate removal while a transition is pending makes the transition hit a re-added contact or an assertion: refuted separately.)", "quantifier": "every history with any number of pending transitions and immediate removals", "why_tests_cant": "several transitions ending in the same step are not tested", "anchors": ["src/formulations/inverse-dynamics-formulation-acc-force.cpp: removeRigidContact, computeProblemData"]}
{"id": "C18", "title": "Measured external forces superpose", "statement": "The external torque used by the computation is the sum of the torques of the measured forces present, independent of the order in which they were added; adding and removing a measured force restores the previous value.", "quantifier": "every history of addMeasuredForce/removeMeasuredForce and every torque value", "why_tests_cant": "order independence over arbitrary histories", "anchors": ["src/formulations/inverse-dynamics-formulation-acc-force.cpp: addMeasuredForce, removeMeasuredForce, computeProblemData", "src/contacts/measured-3d-force.cpp", "src/contacts/measured-6d-wrench.cpp"]}
{"id": "C19", "title": "A force task only acts on its own contact", "statement": "A force task associated with a contact that is present only constrains the force variables of that contact, whatever other calls are made, as long as the association does not change between computations. (Re-association leaves the old coefficients in the columns of the first contact: refuted separately.)", "quantifier": "every history, including removal of the contact and re-association of the task", "why_tests_cant": "needs the combination of removal/re-association with another contact of the same total size", "anchors": ["src/formulations/inverse-dynamics-formulation-acc-force.cpp: computeProblemData", "src/tasks/task-contact-force-equality.cpp: setAssociatedContact, compute"]}
{"id": "C20", "title": "Rejected arguments leave the formulation unchanged", "statement": "addMotionTask/addForceTask/addActuationTask with a negative weight or transition duration throw and leave the formulation exactly as it was; with valid arguments they never throw.", "quantifier": "every state and every argument", "why_tests_cant": "frame condition for all states", "anchors": ["src/formulations/inverse-dynamics-formulation-acc-force.cpp: addMotionTask, addForceTask, addActuationTask"]}
{"id": "C21", "title": "One-sided QP encoding is exact", "statement": "x satisfies CE x + ce0 = 0 and CI x + ci0 >= 0 for the data passed to eiquadprog iff x satisfies every level-0 constraint (equalities, two-sided inequalities, bounds).", "quantifier": "every list of level-0 constraints of any size, every x", "why_tests_cant": "equivalence over all constraint lists", "anchors": ["src/solvers/solver-HQP-eiquadprog.cpp: retrieveQPData", "src/solvers/solver-HQP-eiquadprog-fast.cpp: retrieveQPData", "include/tsid/solvers/solver-HQP-eiquadprog-rt.hxx: solve"]}
{"id": "C22", "title": "Cost encoding is weighted least squares", "statement": "1/2 x'Hx + g'x equals 1/2 of the weighted sum of squared task residuals plus 1/2 reg |x|^2 up to a constant independent of x, so both have the same minimisers on any feasible set.", "quantifier": "every list of level-1 equality tasks, weights, and x", "why_tests_cant": "identity over all x", "anchors": ["src/solvers/solver-HQP-eiquadprog.cpp: retrieveQPData", "src/solvers/solver-HQP-eiquadprog-fast.cpp: retrieveQPData", "src/solvers/solver-proxqp.cpp: retrieveQPData", "src/solvers/solver-osqp.cpp: retrieveQPData", "src/solvers/solver-HQP-qpmad.cpp: retrieveQPData"]}
{"id": "C23", "title": "The QP handed to the solver is strictly convex", "statement": "With non-negative weights the Hessian is symmetric and x'Hx >= reg |x|^2; for the back-ends that regularise on solve (eiquadprog, -fast, -rt, qpmad) a problem with a feasible point has exactly one minimiser. (proxqp and osqp do not regularise on solve, so several minimisers are possible: refuted separately.)", "quantifier": "every list of level-1 tasks with non-negative weights", "why_tests_cant": "positive definiteness is a statement about all x", "anchors": ["src/solvers/solver-HQP-eiquadprog.cpp: retrieveQPData", "src/solvers/solver-HQP-eiquadprog-fast.cpp: retrieveQPData"]}
{"id": "C24", "title": "All solver back-ends solve the same problem", "statement": "For the same HQP data, the feasible set described by the data passed to eiquadprog, eiquadprog-fast, eiquadprog-rt, proxqp and osqp is the set of x satisfying all level-0 constraints; for qpmad too when there is no bound constraint, otherwise it is that set cut with [DBL_MIN, DBL_MAX]^n (so negative values are lost: refuted separately).", "quantifier": "every two-level HQP, including bound constraints, every x", "why_tests_cant": "cross-solver equivalence over all problems", "anchors": ["src/solvers/solver-HQP-eiquadprog.cpp", "src/solvers/solver-HQP-eiquadprog-fast.cpp", "include/tsid/solvers/solver-HQP-eiquadprog-rt.hxx", "src/solvers/solver-proxqp.cpp", "src/solvers/solver-osqp.cpp", "src/solvers/solver-HQP-qpmad.cpp"]}
{"id": "C25", "title": "Unsupported problems are rejected", "statement": "solve throws for more than two levels and for a non-equality in level 1, for every back-end, and accepts every other well-formed two-level problem (rt: of its compile-time sizes; qpmad: unless the problem has bounds and an earlier one had none, which is undefined behaviour: refuted separately).", "quantifier": "every HQP", "why_tests_cant": "classification over all problems", "anchors": ["src/solvers/solver-HQP-eiquadprog.cpp", "src/solvers/solver-HQP-eiquadprog-fast.cpp", "include/tsid/solvers/solver-HQP-eiquadprog-rt.hxx", "src/solvers/solver-proxqp.cpp", "src/solvers/solver-osqp.cpp", "src/solvers/solver-HQP-qpmad.cpp"]}
{"id": "C26", "title": "A solve does not depend on earlier solves", "statement": "For well-formed two-level problems the QP data handed to the back-end by solve(P) depend only on P, not on the calls made before with the same solver object nor on uninitialised memory. (For one-level problems the cost of an earlier problem is kept: refuted separately.)", "quantifier": "every history of problems passed to one solver object", "why_tests_cant": "the internal matrices are reused between calls and only resized when dimensions change", "anchors": ["src/solvers/solver-HQP-eiquadprog.cpp: resize, retrieveQPData", "src/solvers/solver-HQP-eiquadprog-fast.cpp", "src/solvers/solver-HQP-qpmad.cpp: resize, retrieveQPData", "src/solvers/solver-osqp.cpp"]}
{"id": "C27", "title": "Reported status is the status of this solve", "statement": "For every result code the solver looks at, the status in the returned output is determined by this call's code: OPTIMAL iff the back-end reports an optimum (and then the returned x is the back-end's), INFEASIBLE iff it reports no solution, MAX_ITER_REACHED iff it gave up. (The codes INFEASIBLE of eiquadprog-fast/-rt and SOLVED_CLOSEST_PRIMAL_FEASIBLE, NOT_RUN of proxqp leave the previous status, e.g. OPTIMAL: refuted separately.)", "quantifier": "every sequence of back-end results", "why_tests_cant": "sequences of different results on one solver object are not tested", "anchors": ["src/solvers/solver-HQP-eiquadprog-fast.cpp: solve", "include/tsid/solvers/solver-HQP-eiquadprog-rt.hxx: solve", "src/solvers/solver-proxqp.cpp: solve", "src/solvers/solver-osqp.cpp: solve"]}
{"id": "C28", "title": "checkConstraint decides the constraint up to the tolerance", "statement": "checkConstraint(x,tol) is true iff the constraint holds with slack tol (norm for equalities, componentwise otherwise); it is monotone in tol and true for every exact solution when tol > 0.", "quantifier": "every constraint, x and tolerance", "why_tests_cant": "statement over all x and tol", "anchors": ["src/math/constraint-equality.cpp", "src/math/constraint-inequality.cpp", "src/math/constraint-bound.cpp"]}
{"id": "C29", "title": "Force constraint is the friction pyramid", "statement": "For Contact6d and ContactPoint with a normal of length at least 1e-5: forces that satisfy the force constraint lie, at every contact point, in the friction pyramid of two orthonormal tangents, and the total normal force (which getNormalForce returns) lies in [fMin, fMax]; conversely such forces satisfy the constraint when mu > 0 and 2 mu fMax <= 1e10. For the two-frame contact the constraint is fMin <= f_j <= fMax for each component. (Refuted: the converse for larger mu fMax; getNormalForce of the two-frame contact is always 0.)", "quantifier": "every contact normal, friction coefficient, force limits and force vector", "why_tests_cant": "equivalence over all force vectors", "anchors": ["src/contacts/contact-6d.cpp: updateForceInequalityConstraints", "src/contacts/contact-point.cpp: updateForceInequalityConstraints"]}
{"id": "C30", "title": "Tangent directions are orthonormal for every normal", "statement": "For every contact normal of length at least 1e-5 (in particular every unit vector, including the axis used to build the tangents) the two generated tangents are unit vectors orthogonal to the normal and to each other. (Refuted for shorter normals, which the setters accept: the tangential force may be unlimited.)", "quantifier": "every unit vector", "why_tests_cant": "degenerate directions are a measure-zero set", "anchors": ["src/contacts/contact-6d.cpp: updateForceInequalityConstraints", "src/contacts/contact-point.cpp"]}
{"id": "C31", "title": "Contact parameters stay consistent under any setter sequence", "statement": "After any sequence of parameter setters (including rejected ones) starting from valid parameters, 0 < fMin <= fMax and mu > 0 hold for Contact6d and ContactPoint, a rejected call changes nothing, an accepted call changes exactly the parameter it sets, and the force constraint always is the one of the current parameters. (Refuted for the two-frame contact, whose setters do not check: fMin > fMax, an unsatisfiable constraint, is reachable.) The constructor stores its arguments, default weights and a zero force reference.", "quantifier": "every sequence of setter calls with arbitrary arguments", "why_tests_cant": "sequences of accepted and rejected calls", "anchors": ["src/contacts/contact-6d.cpp: setMinNormalForce, setMaxNormalForce, setFrictionCoefficient, setContactNormal", "src/contacts/contact-point.cpp", "src/contacts/contact-two-frame-positions.cpp"]}
{"id": "C32", "title": "The force generator maps point forces to the contact wrench", "statement": "For any contact points, the generator matrix applied to the stacked point forces yields the sum of the forces and the sum of the moments p_i x f_i, and is refreshed when the points change; the force regularisation task asks for this wrench to equal the reference (weighted) after construction, setForceReference or setRegularizationTaskWeightVector until the points change. (Refuted after setContactPoints: the regularisation task keeps the old points.) Wrench times twist of the frame equals the power of the point forces in the velocities of the contact points.", "quantifier": "every set of contact points and forces, every setter sequence", "why_tests_cant": "statement over all points/forces; refresh depends on the setter sequence", "anchors": ["src/contacts/contact-6d.cpp: updateForceGeneratorMatrix, setContactPoints, updateForceRegularizationTask"]}
{"id": "C33", "title": "Feasible contact forces keep the centre of pressure inside the support polygon", "statement": "For forces satisfying the force constraint of a contact with valid parameters and points in a plane orthogonal to the normal, a centre of pressure (point of the plane about which the forces have no tangential moment) exists and every such point is a convex combination of the contact points.", "quantifier": "every contact geometry and every feasible force", "why_tests_cant": "statement over all feasible forces", "anchors": ["src/contacts/contact-6d.cpp"]}
{"id": "C34", "title": "Joint velocity/acceleration bound task keeps the next velocity in bounds", "statement": "After any history of calls, an acceleration satisfies the constraint of TaskJointBounds iff every actuated joint's velocity after one time step is inside its velocity bounds and its acceleration inside its acceleration bounds (and the floating base inside +-1e10); compute is defined for every velocity vector with at least na entries. Each setter stores exactly its arguments (wrong sizes and non-positive time steps throw and change nothing); a new task has bounds +-1e10.", "quantifier": "every joint state, bounds, time step > 0 and admissible acceleration", "why_tests_cant": "statement over all accelerations", "anchors": ["src/tasks/task-joint-bounds.cpp: compute"]}
{"id": "C35", "title": "TaskJointBounds never produces contradictory bounds", "statement": "When the velocity and acceleration bounds are ordered, the lower bound computed by TaskJointBounds for a joint does not exceed the upper one iff the current velocity can be brought inside the velocity bounds within one step by an acceleration inside the acceleration bounds. (Refuted for other velocities: the bounds cross and no acceleration is admissible.)", "quantifier": "every joint state and ordered bounds", "why_tests_cant": "fails only for velocities far outside the limits", "anchors": ["src/tasks/task-joint-bounds.cpp: compute"]}
{"id": "C36", "title": "Position/velocity/acceleration bound task always yields an interval", "statement": "For every state of TaskJointPosVelAccBounds, joint state and choice of imposed limits, the lower acceleration bound computed is never greater than the upper one (any scalar type with irreflexive <, including doubles). When the limits exclude each other, the interval is the single point given by the least upper limit if that is the position limit, and by the greatest lower limit otherwise; all velocity and acceleration limits of one side still hold.", "quantifier": "every state, bounds and enabled bound set", "why_tests_cant": "conflict resolution over four competing bounds", "anchors": ["src/tasks/task-joint-posVelAcc-bounds.cpp: computeAccLimits"]}
{"id": "C37", "title": "Position limits respected over one step", "statement": "Whenever the imposed limits do not conflict, an acceleration satisfies the constraint of TaskJointPosVelAccBounds iff it respects each of them: in particular the joint position stays inside [qMin,qMax] at every instant of the step (of length 2 dt), the velocity at its end is inside the limits. Each setter stores its arguments and switches on exactly the limits it sets; a new task imposes nothing.", "quantifier": "every state inside the limits, every acceleration within the computed bounds, every instant of the step", "why_tests_cant": "continuous-time statement", "anchors": ["src/tasks/task-joint-posVelAcc-bounds.cpp: computeAccLimitsFromPosLimits"]}
{"id": "C38", "title": "Viability is preserved", "statement": "If position and viability limits are imposed, every joint range is at least ddqMax (2 dt)^2 and the velocity limit at least ddqMax dt, then from a stoppable joint state (one from which some constant deceleration stops the joint inside its range) every acceleration satisfying the constraint leads, at every time step, to a stoppable state, the constraint always has a solution, and the positions stay inside the limits for ever. (Refuted for viability limits without position limits, and for narrower ranges.)", "quantifier": "every viable state, every admissible acceleration, every number of steps", "why_tests_cant": "invariance over infinitely many steps", "anchors": ["src/tasks/task-joint-posVelAcc-bounds.cpp: computeAccLimitsFromViability, isStateViable"]}
{"id": "C39", "title": "Changing the time step is equivalent to constructing with it", "statement": "After setTimeStep(dt) TaskJointBounds computes the same constraint as one constructed with dt that has the same bounds. (Refuted for TaskJointPosVelAccBounds: the constructor keeps 2 dt, setTimeStep stores dt and leaves the derived constants; setTimeStep(2 dt) after construction with dt changes nothing.)", "quantifier": "every dt and every state", "why_tests_cant": "only visible when bounds are recomputed after the change", "anchors": ["src/tasks/task-joint-posVelAcc-bounds.cpp: constructor, setTimeStep"]}
{"id": "C40", "title": "Masks select exactly the requested joints", "statement": "After any calls with 0/1 masks: the posture constraint has one row per active joint, in order, that reads exactly this joint, with the desired acceleration of this joint; the torques satisfy the actuation bound constraint iff those of the active joints are within the bounds set since the last mask change (and are zero before setBounds is called again); they satisfy the actuation equality constraint iff those of the active joints with non-zero weight equal the reference, whatever the order in which mask, reference and weights are set.", "quantifier": "every mask, reference and state", "why_tests_cant": "every subset of joints", "anchors": ["src/tasks/task-joint-posture.cpp: setMask, compute", "src/tasks/task-actuation-bounds.cpp", "src/tasks/task-actuation-equality.cpp"]}
{"id": "C41", "title": "Posture task realises PD error dynamics", "statement": "Accelerations satisfy the posture constraint iff the active joints have acceleration a_ref - Kp e - Kd de, with e the difference between the current and the reference configuration; getAcceleration(dv) returns the joint accelerations of the active joints, which equal getDesiredAcceleration at these joints iff the constraint holds; the setters are accepted iff the sizes fit and change only their parameter.", "quantifier": "every mask, gains, reference, state and acceleration", "why_tests_cant": "statement over all accelerations", "anchors": ["src/tasks/task-joint-posture.cpp"]}
{"id": "C42", "title": "Task accelerations reported match the constraint", "statement": "For SE3, two-frame, CoM and angular momentum tasks after compute: dv satisfies the constraint iff getAcceleration(dv) (getdMomentum) equals getDesiredAcceleration on the active components. (Refuted for CoM and angular momentum, which subtract the drift: solutions report the desired value minus twice the drift.)", "quantifier": "every task state, drift and dv", "why_tests_cant": "sign conventions of the drift term matter only when the drift is non-zero", "anchors": ["src/tasks/task-se3-equality.cpp", "src/tasks/task-com-equality.cpp", "src/tasks/task-angular-momentum-equality.cpp", "src/tasks/task-two-frames-equality.cpp"]}
{"id": "C43", "title": "CoP task pins the centre of pressure", "statement": "Contact forces with non-zero total along the normal satisfy the CoP task iff the centre of pressure of the contact points, weighted with the components of the force variables along the normal, is the reference in all three coordinates.", "quantifier": "every set of contacts, points, forces and reference", "why_tests_cant": "equivalence over all forces", "anchors": ["src/tasks/task-cop-equality.cpp: compute"]}
{"id": "C44", "title": "Capture point task keeps the capture point in the support box", "statement": "An acceleration satisfies the capture point constraint iff the capture point at the end of the time step lies within the support limits reduced by the margin on both axes (CoM above the ground, positive gravity and time step).", "quantifier": "every CoM state, limits, height, time step and acceleration", "why_tests_cant": "statement over all accelerations", "anchors": ["src/tasks/task-capture-point-inequality.cpp: compute"]}
{"id": "C45", "title": "Contact force integrator is bounded and repeatable", "statement": "With leak rate and time step such that 0 < leak*dt <= 1 and bounded force error, the integral term of the contact force task stays bounded for ever, by error over leak rate; calling compute twice at the same instant gives the same constraint. (Second part refuted: each call advances the integral; without leak it grows without bound.)", "quantifier": "every sequence of force errors and calls", "why_tests_cant": "boundedness over infinitely many steps", "anchors": ["src/tasks/task-contact-force-equality.cpp: compute"]}
{"id": "C46", "title": "SE3 vector encoding round-trips", "statement": "vectorToSE3(SE3ToVector(M)) = M for every placement, and SE3ToVector(vectorToSE3(v)) = v for every 12-vector; any other size throws and leaves the output alone.", "quantifier": "every placement / 12-vector", "why_tests_cant": "all inputs", "anchors": ["src/math/utils.cpp: SE3ToVector, vectorToSE3"]}
{"id": "C47", "title": "Matrix file format round-trips", "statement": "readMatrixFromFile after writeMatrixToFile returns the same matrix for every size and content when both sides have the same storage order, and reports failure without touching its output when the file cannot be opened. (Refuted for a row-major matrix read as column-major: the order is not stored.)", "quantifier": "every matrix of every size", "why_tests_cant": "all sizes", "anchors": ["include/tsid/math/utils.hpp: writeMatrixToFile, readMatrixFromFile"]}
{"id": "C48", "title": "Pseudo-inverse is the Moore-Penrose inverse", "statement": "With a positive tolerance and singular values either zero or above it, the matrix computed from the SVD is the one and only Moore-Penrose inverse, and the damped solve and the damped pseudo-inverse give a minimiser of |Ax-b|^2 + damping^2 |x|^2. With a tolerance <= 0 the result is the zero matrix; without damping a zero singular value makes dampedPseudoInverse NaN.", "quantifier": "every matrix with its SVD, every tolerance/damping", "why_tests_cant": "algebraic identities over all matrices", "anchors": ["src/math/utils.cpp: pseudoInverse, dampedPseudoInverse, solveWithDampingFromSvd"]}
{"id": "C49", "title": "Statistics report the true min, max, average, last and total", "statement": "After any sequence of store/reset/turn_on/turn_off calls the total, average, last value and number of samples of a quantity are those of the samples stored since its last reset, independent of other quantities; max and min too, if some sample is >= 0 resp. no sample is 0 or some is negative. (Refuted in general: a zero sample is dropped from the minimum, and negative samples have maximum 0.)", "quantifier": "every sequence of samples and names", "why_tests_cant": "particular values (0, negative) break incremental min/max", "anchors": ["src/utils/statistics.cpp"]}
{"id": "C50", "title": "Stopwatch measures the elapsed time", "statement": "Total, last, min and max time of a measurement come from the elapsed times between its matching start and stop calls, for every clock mode and whatever other measurements do. (Refuted for pause, which counts the same interval again, in processor ticks, and for a second stop.)", "quantifier": "every sequence of start/pause/stop/reset calls and every monotone clock", "why_tests_cant": "pause path and clock mode combinations", "anchors": ["src/utils/stop-watch.cpp"]}
{"id": "C51", "title": "Constant trajectories are constant", "statement": "A constant trajectory returns its reference with zero derivatives for every query, until the reference is changed. (Refuted for a reference that is the trajectory's own value: it is replaced by zeros, or read after it was freed; an SE3 trajectory made without placement returns a zero rotation matrix.)", "quantifier": "every sequence of setReference/operator()/getLastSample calls", "why_tests_cant": "sequences", "anchors": ["src/trajectories/trajectory-euclidian.cpp", "src/trajectories/trajectory-se3.cpp"]}
{"id": "C52", "title": "Rotor inertias enter the mass matrix exactly once", "statement": "mass() is the rigid-body mass matrix plus gear_ratio^2*rotor_inertia on the actuated diagonal and nothing else, however often it is called and in whatever order the parameters are set; symmetric positive definiteness is preserved if the rotor inertias are >= 0 (refuted otherwise: negative ones are accepted).", "quantifier": "every sequence of parameter setters and mass() calls", "why_tests_cant": "repeated calls could accumulate", "anchors": ["src/robots/robot-wrapper.cpp: mass, setRotorInertias, setGearRatios, updateMd"]}
{"id": "C53", "title": "is_nan reports NaN", "statement": "is_nan(M) is true iff some entry of M is NaN. (Refuted: it is true iff no entry is NaN.)", "quantifier": "every matrix", "why_tests_cant": "all matrices", "anchors": ["include/tsid/math/utils.hpp: is_nan"]}
{"id": "C54", "title": "Well-formed calls never reach undefined behaviour", "statement": "In every state reached by well-formed calls (fresh unreserved names, priority levels 0 and 1, data of the announced sizes, removal of names that are present, times not before the start of pending transitions) the next well-formed call neither fails an assertion nor reads or writes outside a vector, matrix or list, in debug and release builds.", "quantifier": "every finite history of well-formed calls, every robot, task and contact size, every data values", "why_tests_cant": "absence of size mismatches over all interleavings of add/remove/compute/get calls cannot be enumerated", "anchors": ["src/formulations/inverse-dynamics-formulation-acc-force.cpp:51-607"]}
{"id": "C55", "title": "Solving the computed problem gives the best physically consistent motion", "statement": "After computeProblemData in any state reached by well-formed calls, every back-end accepts the HQP data iff level 1 holds equalities only; if the external solver returns an exact optimum of the QP it was given, solve reports OPTIMAL and its x is physically consistent (dynamics, contacts, force limits, hard tasks) and minimises the weighted squared task errors (plus the documented regularisation) among all physically consistent x; such an optimum exists for the regularising back-ends whenever some physically consistent x exists.", "quantifier": "every history of well-formed formulation calls, every history of the solver object, every back-end and external answer", "why_tests_cant": "composition of formulation and solver over all histories and all real vectors", "anchors": ["src/formulations/inverse-dynamics-formulation-acc-force.cpp", "src/solvers/solver-HQP-eiquadprog.cpp", "src/solvers/solver-HQP-eiquadprog-fast.cpp", "include/tsid/solvers/solver-HQP-eiquadprog-rt.hxx", "src/solvers/solver-proxqp.cpp", "src/solvers/solver-osqp.cpp", "src/solvers/solver-HQP-qpmad.cpp"]}
{"id": "C56", "title": "Masked limit task stays well formed", "statement": "For every 0/1 mask, setMask of TaskJointPosVelAccBounds followed by compute leaves a matrix with one row per active joint that reads this joint. The matrix and the bound vectors agree in size iff the mask is all ones. (Refuted for every mask with a zero: bounds for all joints, rows for the active ones only.)", "quantifier": "every mask, state, history", "why_tests_cant": "every subset of joints; existing tests only use full masks", "anchors": ["src/tasks/task-joint-posVelAcc-bounds.cpp: setMask, compute"]}
{"id": "C57", "title": "Limits that are switched off have no effect", "statement": "With a kind of limit switched off by setImposeBounds the constraint does not depend on it: velocity and acceleration limits are then replaced by +-1e10. (Refuted for position and viability limits: the last values computed while they were on keep acting.)", "quantifier": "every history of setImposeBounds and compute", "why_tests_cant": "needs a compute before the limit is switched off", "anchors": ["src/tasks/task-joint-posVelAcc-bounds.cpp: compute, setImposeBounds"]}
{"id": "C58", "title": "Rejected masks leave the joint tasks unchanged", "statement": "A mask rejected by an exception leaves the task as it was. (Refuted: the mask and the list of active axes are already replaced; the next compute of the posture task writes out of bounds, and TaskActuationBounds accepts bounds whose size differs from the number of rows.)", "quantifier": "every state and mask", "why_tests_cant": "tests never use a task after a rejected call", "anchors": ["src/tasks/task-joint-posture.cpp: setMask", "src/tasks/task-actuation-bounds.cpp: mask"]}
{"id": "C59", "title": "Posture task reports state and errors", "statement": "After compute(q,v), velocity(), velocity_error() and position_error() are those of q and v. (Refuted for position(): it is an empty vector after every sequence of calls.)", "quantifier": "every history, configuration and velocity", "why_tests_cant": "all histories", "anchors": ["src/tasks/task-joint-posture.cpp: compute, position"]}
{"id": "C60", "title": "Frame, CoM and momentum tasks impose their PD laws", "statement": "After compute, joint accelerations satisfy the constraint iff on every component with mask 1 the task acceleration J dv + drift equals Kp (reference - measure) + Kd (reference velocity - velocity) + reference acceleration, expressed in the local frame or in world axes as chosen with useLocalFrame (for two frames: the relative acceleration; for the angular momentum: Kp (L_ref - L) + dL_ref).", "quantifier": "every history, mask, gain, reference, placement, Jacobian, drift and dv", "why_tests_cant": "tests check convergence for one robot and one gain", "anchors": ["src/tasks/task-se3-equality.cpp", "src/tasks/task-two-frames-equality.cpp", "src/tasks/task-com-equality.cpp", "src/tasks/task-angular-momentum-equality.cpp"]}
{"id": "C61", "title": "useLocalFrame does not change the SE3 task", "statement": "With all components active and gains equal within the linear and within the angular components, local-frame and world-axes constraints have the same solutions. (Refuted without equal gains.)", "quantifier": "every history, rotation, reference, state and dv", "why_tests_cant": "relational property over all rotations", "anchors": ["src/tasks/task-se3-equality.cpp"]}
{"id": "C62", "title": "Reported tracking errors", "statement": "position_error() and velocity_error() are the masked errors of the PD law; velocity_error() = velocity_ref() - velocity(). (Second part refuted for SE3 in both modes: velocity() is in the frame, velocity_ref() in world axes; the CoM task reports measure minus reference.)", "quantifier": "every history and state", "why_tests_cant": "tests use aligned frames or only norms", "anchors": ["src/tasks/task-se3-equality.cpp", "src/tasks/task-com-equality.cpp"]}
{"id": "C63", "title": "Masks, sizes and failed calls of the frame, CoM and momentum tasks", "statement": "With 0/1 masks of the size of the task and references of the right sizes no sequence of calls has undefined behaviour; in general compute is defined iff the mask has an entry per component and its sum reserves a row for each entry equal to 1; a call that throws changes nothing. (Refuted for SE3: masks of any size and value are accepted, e.g. three entries make compute read out of bounds; a rejected reference sample is kept by getReference.)", "quantifier": "every sequence of calls", "why_tests_cant": "all histories and masks", "anchors": ["src/tasks/task-se3-equality.cpp", "src/tasks/task-two-frames-equality.cpp", "src/tasks/task-com-equality.cpp", "src/tasks/task-angular-momentum-equality.cpp"]}
{"id": "C64", "title": "CoP task and the frame of the contact forces", "statement": "Forces satisfy the CoP task iff the centre of pressure of the forces expressed in world axes is the reference, when the normal is the same vector in every contact frame and in the world. (Refuted for tilted contacts: the world normal multiplies local force components.) A reference out of the plane of the contact points forces the total normal component to be zero.", "quantifier": "every set of contacts, placements, forces and reference", "why_tests_cant": "tests use flat feet aligned with the world", "anchors": ["src/tasks/task-cop-equality.cpp: compute"]}
{"id": "C65", "title": "Margins and reported acceleration of the capture point task", "statement": "Any margin is accepted; margins wider than half the support make the constraint unsatisfiable. getAcceleration is undefined for every state and argument: it subtracts a vector of size 3 from one of size 2.", "quantifier": "every history, state and dv", "why_tests_cant": "getAcceleration is never called in the tests; all histories", "anchors": ["src/tasks/task-capture-point-inequality.cpp: setSafetyMargin, getAcceleration"]}
{"id": "C66", "title": "Contact force task imposes its PID law", "statement": "After compute the generated contact force equals the reference plus Kp times the force error, Kd times the error of the derivatives and Ki times the leaky integral. compute is defined iff the three gains have been set and the four samples have six entries; the matrix fits the vector iff the contact has a six-row force generator; with the list of contacts, nothing changes if the associated contact is not listed.", "quantifier": "every history, gain, sample, generator matrix and force", "why_tests_cant": "all histories and forces", "anchors": ["src/tasks/task-contact-force-equality.cpp: compute"]}
{"id": "C67", "title": "isFinite reports finite matrices", "statement": "isFinite(M) is true iff no entry of M is NaN or infinite, in IEEE double arithmetic with any rounding mode.", "quantifier": "every matrix of doubles", "why_tests_cant": "all doubles", "anchors": ["include/tsid/math/utils.hpp: isFinite"]}
{"id": "C68", "title": "Damaged matrix files are accepted", "statement": "A file shorter than its header announces is accepted: readMatrixFromFile returns true and the missing entries are whatever the memory contained; an empty file gives a matrix of size 0 x 0.", "quantifier": "every matrix and every number of missing bytes", "why_tests_cant": "depends on the contents of fresh memory", "anchors": ["include/tsid/math/utils.hpp: readMatrixFromFile"]}
{"id": "C69", "title": "World-oriented frame velocity is the derivative of the frame position", "statement": "For every joint motion the linear part of frameVelocityWorldOriented is the time derivative of the translation of framePosition, plus the cross product of the unset translation of a local placement with the angular velocity; the angular part is that of the joint in world axes. (Without the extra term refuted: nothing initialises that translation.)", "quantifier": "every differentiable joint motion, frame placement and content of the uninitialised memory", "why_tests_cant": "derivative over all motions; fresh memory is often zero in tests", "anchors": ["src/robots/robot-wrapper.cpp: framePosition, frameVelocity, frameVelocityWorldOriented"]}
{"id": "C70", "title": "World-oriented classic acceleration is the second derivative of the frame position", "statement": "For every joint motion the linear part of frameClassicAccelerationWorldOriented is the second time derivative of the translation of framePosition, plus the same extra term with the angular acceleration.", "quantifier": "every twice differentiable joint motion, frame placement and content of the uninitialised memory", "why_tests_cant": "second derivative over all motions", "anchors": ["src/robots/robot-wrapper.cpp: frameClassicAcceleration, frameClassicAccelerationWorldOriented"]}
{"id": "C71", "title": "Null space basis", "statement": "With a full V, a positive tolerance and singular values either zero or above it, nullSpaceBasisFromDecomposition returns an orthonormal basis of the kernel of A, also through pseudoInverse. A thin V of a wide matrix has the wrong number of rows; a tolerance <= 0 returns all of V.", "quantifier": "every matrix with its SVD, every tolerance", "why_tests_cant": "completeness of the basis quantifies over all kernel vectors", "anchors": ["src/math/utils.cpp: nullSpaceBasisFromDecomposition, pseudoInverse"]}
{"id": "C72", "title": "World-oriented spatial acceleration, unknown frames", "statement": "For every joint motion the linear part of frameAccelerationWorldOriented is p'' - w x p', where p is the translation of framePosition and w the angular velocity, both in world axes, plus the extra term of C70. All frame functions throw for an index beyond the frames of the model.", "quantifier": "every twice differentiable joint motion, frame placement, frame index and content of the uninitialised memory", "why_tests_cant": "second derivative over all motions", "anchors": ["src/robots/robot-wrapper.cpp: frameAcceleration, frameAccelerationWorldOriented"]}
{"id": "C73", "title": "Warning about states that are not viable", "statement": "In verbose mode compute of TaskJointPosVelAccBounds warns about a joint iff its state exceeds a position or velocity limit, or a speed from which it can no longer brake before a position limit, by more than 1e-10. (False: within 1e-10 of the lower braking speed nothing is reported, so a joint at rest any distance below its range gives no warning; true everywhere else, and there are no false alarms.)", "quantifier": "every state of the task, joint position and velocity", "why_tests_cant": "equivalence over all joint states", "anchors": ["src/tasks/task-joint-posVelAcc-bounds.cpp: isStateViable, computeAccLimits"]}
{"id": "C74", "title": "Contact motion constraints follow the last gains and reference", "statement": "After any sequence of Kp, Kd, setReference, useLocalFrame and computeMotionTask calls, the motion constraint computed by a contact holds exactly for the accelerations that drive the contact frame (the point in the chosen axes, the six components of the 6d contact, the difference of the two origins for the two-frame contact) to the last accepted reference with the last accepted gains; it has n_motion rows (3, 6, 3); Kp() and Kd() return these gains. Uninitialised memory has no influence. Gains of a wrong size are rejected (false for the two-frame contact, which reads past the end).", "quantifier": "every history of calls, robot state, gains, references, contents of uninitialised memory", "why_tests_cant": "equality of solution sets after arbitrary histories and for every content of uninitialised memory", "anchors": ["src/contacts/contact-point.cpp: Kp, Kd, useLocalFrame, setReference, computeMotionTask", "src/contacts/contact-6d.cpp: Kp, Kd, setReference, computeMotionTask", "src/contacts/contact-two-frame-positions.cpp: Kp, Kd, computeMotionTask"]}
{"id": "C75", "title": "Torques of measured forces", "statement": "After any sequence of setMeasuredContactForce, useLocalFrame and computeJointTorques calls, the torques tau returned by Measured3Dforce and Measured6Dwrench satisfy tau.v = power of the last measured force in the velocity of the frame, for every joint velocity v, in the axes selected last; a force given in world axes and the same force given in the frame give the same torques.", "quantifier": "every history of calls, robot state, force, joint velocity", "why_tests_cant": "virtual power identity for all velocities, after histories that reuse the Jacobian member", "anchors": ["src/contacts/measured-3d-force.cpp: computeJointTorques, setMeasuredContactForce, useLocalFrame", "src/contacts/measured-6d-wrench.cpp: computeJointTorques, setMeasuredContactForce, useLocalFrame"]}
{"id": "C76", "title": "Renaming objects of the formulation", "statement": "Objects may be renamed at any time: number of variables, force slots and columns of the HQP data stay consistent for all histories. If contacts are only renamed while absent from the formulation (and tasks keep their name), the counters nEq/nIn stay equal to the hard rows and no call is undefined. (The unrestricted claim is false: after renaming a present task, removeTask by the new name aborts in debug builds; in release builds it returns true, forgets the task and subtracts its rows from the counters but leaves its constraint in the HQP; by the old name it deletes the constraint, keeps the task and returns false. Likewise for contacts.) Renaming a measured force changes which name removeMeasuredForce finds it under, and nothing else.", "quantifier": "every interleaving of calls and renamings, any new names", "why_tests_cant": "needs all interleavings of renamings with additions, removals and computations", "anchors": ["include/tsid/tasks/task-base.hpp: name", "include/tsid/contacts/contact-base.hpp: name", "src/formulations/inverse-dynamics-formulation-acc-force.cpp: removeTask, removeRigidContact, removeFromHqpData"]}
{"id": "C77", "title": "Settings of the QP back-ends", "statement": "Over every history of calls on one solver object, in any order and interleaved with resizes, solves and exceptions: getMaximumIterations, getMaximumTime and getUseWarmStart return the last acceptable request or the documented default; with proxqp and osqp the library object in use has the sizes of the problem and the last requested rho, mu, sigma, alpha, tolerances, number of iterations and verbosity, however often the sizes changed; with eiquadprog-fast and -rt it runs with the last number of iterations the library accepted. A setter that is not obeyed returns false.", "quantifier": "all back-ends, builds, library defaults, parameter values and call sequences", "why_tests_cant": "The settings are rewritten by every change of the problem sizes; a test sees a few sequences of setters and sizes, and the library settings are not visible through the API.", "anchors": ["src/solvers/solver-HQP-base.cpp:16-33", "src/solvers/solver-proxqp.cpp:14-82", "src/solvers/solver-proxqp.cpp:235-264", "src/solvers/solver-osqp.cpp:14-93", "src/solvers/solver-osqp.cpp:265-295", "src/solvers/solver-HQP-eiquadprog-fast.cpp:224-227"]}
{"id": "C78", "title": "Copies of a SolverOSQP", "statement": "A copy of a SolverOSQP can be used in place of the original: it accepts every problem the original accepts, gives the same QP to the library and has the same settings.", "quantifier": "all histories of the original, all well-formed two-level problems, all settings", "why_tests_cant": "Whether the copy works depends on the sizes of the problems before and after the copy; where it fails the behaviour is undefined and may pass in a release build.", "anchors": ["src/solvers/solver-osqp.cpp:29-93", "src/solvers/solver-osqp.cpp:145-168"]}
{"id": "C79", "title": "dim() of a task", "statement": "After every history of calls, dim() of a task is the number of rows of the matrix and of the right-hand sides of the constraint compute() hands out; for masked tasks it is the number of selected components. (False for TaskJointPosVelAccBounds, whose dim() ignores the mask, and after setMask has thrown: dim() is then that of the refused mask.)", "quantifier": "every task, robot size, mask and history of setters, masks and computations", "why_tests_cant": "dim() and the constraint are stored apart (a truncated floating-point sum of the mask against the rows of a resized matrix); they have to agree after every interleaving, also after exceptions.", "anchors": ["src/tasks/task-joint-posture.cpp:28-60", "src/tasks/task-se3-equality.cpp:46-60", "src/tasks/task-joint-posVelAcc-bounds.cpp:104-125", "src/tasks/task-actuation-bounds.cpp:23-44", "src/tasks/task-com-equality.cpp:41"]}
{"id": "C80", "title": "Joint velocity and acceleration bounds with rounding", "statement": "In IEEE double arithmetic every acceleration within the bounds computed by TaskJointBounds respects the acceleration limits exactly and leads to a velocity within the velocity limits up to 3*2^-53 of the distance to the limit (plus dt*2^-1075), and no acceleration is excluded that respects the limits by that margin. If the velocity is within its limits and the acceleration limits contain 0, the computed interval contains 0 for all finite inputs, even on overflow. (Without the slack it is false; a NaN velocity makes both bounds NaN, so the acceleration limits are lost too.)", "quantifier": "all finite doubles (for the error bound: magnitudes up to 2^500, dt from 2^-500), all robot sizes and histories of setter calls", "why_tests_cant": "Rounding errors depend on every bit of the inputs; tests compare with a tolerance at a few values and never see the worst case, overflow or NaN.", "anchors": ["src/tasks/task-joint-bounds.cpp:89-105", "src/tasks/task-joint-bounds.cpp:14-34"]}
{"id": "C81", "title": "Joint position limits with rounding", "statement": "In IEEE double arithmetic, whenever position limits are imposed and the interval computed by TaskJointPosVelAccBounds is proper, every acceleration in it keeps the joint inside its position limits during the whole (doubled) time step up to 8*2^-53*(distance to the limit + dt*|v|) + 2^-200, respects the velocity limits up to rounding and the acceleration limits exactly, whatever the square root returns. The interval is never inverted for any inputs, infinities and NaN included.", "quantifier": "all doubles of magnitude up to 2^200 strictly inside their range, time steps between 2^-100 and 2^100, all histories without setTimeStep; the order of the bounds: all doubles", "why_tests_cant": "The branch taken (q3, q2, stop) is decided by comparisons of rounded numbers; a wrong branch caused by rounding must still be safe, which has to hold for every rounding pattern.", "anchors": ["src/tasks/task-joint-posVelAcc-bounds.cpp:266-309", "src/tasks/task-joint-posVelAcc-bounds.cpp:356-434"]}
{"id": "C82", "title": "Masks of doubles are counted exactly", "statement": "The dimension of a masked task, computed by truncating a floating-point sum of the mask, is the number of ones in the mask, whatever the order in which Eigen adds the entries, and the selection matrix has exactly the rows of the selected joints.", "quantifier": "all 0/1 masks (also -0.0) of up to 2^53 doubles, all summation orders and parentheses", "why_tests_cant": "Eigen's reductions add in an order depending on vectorisation and alignment; tests see one order and a few masks.", "anchors": ["src/tasks/task-joint-posture.cpp:34-54", "src/tasks/task-actuation-bounds.cpp:24-45", "src/tasks/task-joint-posVelAcc-bounds.cpp:104-123"]}
{"id": "C83", "title": "Data objects and contact calls of the Python interface", "statement": "The HQPData object that computeProblemData returns in Python is, right after the call, the problem of the formulation. As long as the contacts stay, it remains a well-formed problem of the same number of variables, with the same names, kinds and sizes; after calls that only change values (another computation, decoding) it is equal to the current problem. It is not a snapshot: a later computation changes the values in it, weights changed later are not seen in it, and after the removal of a contact it is malformed. addRigidContact with a priority level puts the motion task at level min(level, 1), never undefined behaviour, whereas level 2 in C++ is. checkContact is true exactly for contacts that are present.", "quantifier": "all histories of calls, both build types, all scalars, all numbers passed as level; checkContact: contacts with at least one force variable", "why_tests_cant": "Which part of the returned object is a copy and which is shared only shows after later calls; histories are unbounded.", "anchors": ["include/tsid/bindings/python/formulations/formulation.hpp:205-276", "include/tsid/bindings/python/utils/container.hpp:85-139", "src/formulations/inverse-dynamics-formulation-acc-force.cpp:165-206"]}
{"id": "C84", "title": "Constraints returned by the tasks in Python are those of the tasks", "statement": "The constraint object that compute and getConstraint of a task return in Python has the name, kind, matrix and right-hand side or bounds of the task's own constraint, after every history of calls. For the contact force task the copy throws exactly when the force generator does not have six rows. For TaskJointPosVelAccBounds this is false: the copy is a bound on the vector of the na actuated accelerations. It has the same solutions as the original when nv = na and no joint is masked; on a floating base it does not fit the problem, so testing a vector of nv accelerations or solving a problem containing it is undefined behaviour in every solver; masks have no effect on it.", "quantifier": "all histories of calls of each task (joint tasks: masks of zeros and ones), all sizes nv and na, all solvers and problems", "why_tests_cant": "The Python tests use one robot per task; faithfulness is about every history of masks, gains and references and every size.", "anchors": ["include/tsid/bindings/python/tasks/task-joint-posVelAcc-bounds.hpp:109-124", "include/tsid/bindings/python/tasks/task-joint-bounds.hpp:77-92", "include/tsid/bindings/python/tasks/task-joint-posture.hpp:102-117", "include/tsid/bindings/python/tasks/task-actuation-bounds.hpp:68-83", "src/math/constraint-bound.cpp:19-27"]}
{"id": "C85", "title": "What the solver output holds besides x and the status", "statement": "After a solve that the library reports as optimal, lambda (and iterations) of the HQPOutput are those of the library for eiquadprog-fast, eiquadprog-rt, proxqp (osqp: lambda only); the active set of fast and rt is the part of the library's active set behind the equalities, and is undefined behaviour if the library's active set is shorter than the number of equalities. After any other answer these fields still hold what the previous call left (fast: unspecified contents of the new sizes if the sizes of the problem changed). SolverHQuadProg and qpmad never write lambda, activeSet and iterations; proxqp never has an active set; osqp never writes activeSet and iterations, which stays the uninitialised integer it was created with. HQP_status_string has the right name for each status except HQP_STATUS_UNKNOWN, for which it is read out of bounds.", "quantifier": "all histories of resize, retrieveQPData and solve on one object, all six back-ends, both build types, all problems, all answers of the libraries, all scalars", "why_tests_cant": "Tests solve a few problems with one result; which fields are fresh depends on the history of sizes and answers.", "anchors": ["include/tsid/solvers/solver-HQP-output.hpp:29-53", "src/solvers/solver-HQP-eiquadprog-fast.cpp:54-83", "src/solvers/solver-HQP-eiquadprog-fast.cpp:170-215", "include/tsid/solvers/solver-HQP-eiquadprog-rt.hxx:155-205", "src/solvers/solver-proxqp.cpp:180-225", "src/solvers/solver-osqp.cpp:210-260", "src/solvers/solver-HQP-base.cpp:12-14"]}
{"id": "C86", "title": "Rows of the QP and multipliers in terms of the user's constraints", "statement": "Row k of the equality and inequality matrices handed to the library is a determined row and side of a determined constraint of level 0 (equalities in order; for each inequality or bound first all lower then all upper sides, or one two-sided row). Numbers are multipliers of the QP at x (stationarity and complementarity in the sign convention of the library) exactly when they price the user's constraints: the derivative of the weighted least-squares cost of the tasks in any direction is the sum of multipliers times the changes of the constraints' rows, and a multiplier is non-zero only for a side that is reached, with the sign of that side. A feasible x having multipliers minimises the cost of the tasks among all feasible points.", "quantifier": "all well-formed problems of any size, all solver histories, back-ends other than qpmad for the multipliers, all x and multipliers, all directions", "why_tests_cant": "The correspondence of rows depends on the numbers and sizes of the constraints; the multiplier statement is about all points and directions.", "anchors": ["src/solvers/solver-HQP-eiquadprog-fast.cpp:85-150", "src/solvers/solver-HQP-eiquadprog.cpp:60-175", "include/tsid/solvers/solver-HQP-eiquadprog-rt.hxx:60-135", "src/solvers/solver-proxqp.cpp:80-170", "src/solvers/solver-osqp.cpp:95-195"]}
{"id": "C87", "title": "Meaning of getObjectiveValue", "statement": "After a solve whose library returns the value of its QP at x, getObjectiveValue is the weighted least-squares cost of the tasks at x (with the regularisation of the back-end) minus half the weighted squares of the tasks' desired values; in particular it is not the cost of the tasks. For qpmad it is infinity whatever was solved. For SolverHQuadProg the status is infeasible exactly when it equals infinity and optimal otherwise.", "quantifier": "all histories, all problems with two levels, all answers of the library", "why_tests_cant": "The offset depends on the desired values; tests compare single numbers.", "anchors": ["src/solvers/solver-HQP-eiquadprog.cpp:225-268", "src/solvers/solver-HQP-eiquadprog-fast.cpp:218-222", "src/solvers/solver-proxqp.cpp:229-233", "src/solvers/solver-osqp.cpp:262-265", "src/solvers/solver-HQP-qpmad.cpp:194-197"]}
{"id": "C88", "title": "Messages about violated constraints in debug builds", "statement": "After an optimal answer a debug build prints one message for each constraint of level 0 that x violates by 1e-6 or more (in norm for equalities, more than 1e-6 in some row otherwise), in the order of the level, and no other; the message carries the name of the constraint and the norm of the residual or the smallest distances to the lower and upper limits, one of which is below -1e-6. It prints nothing for feasible x, for other answers and in release builds, and building the messages is never undefined.", "quantifier": "all well-formed levels, all x of the right size, all sizes", "why_tests_cant": "Tests do not look at printed messages, and the claim is about every x and constraint.", "anchors": ["src/solvers/solver-HQP-eiquadprog.cpp:232-260", "src/solvers/solver-HQP-eiquadprog-fast.cpp:181-209", "include/tsid/solvers/solver-HQP-eiquadprog-rt.hxx:169-196", "src/solvers/solver-proxqp.cpp:191-219", "src/solvers/solver-osqp.cpp:218-247", "src/solvers/solver-HQP-qpmad.cpp:160-187"]}
{"id": "C89", "title": "In closed loop the tracking errors of the motion tasks converge exponentially", "statement": "If at every time t >= 0 a motion task is computed at the current state with constant positive gains kp, kd, the commanded acceleration satisfies its constraint and the robot moves with that acceleration, then the tracking error of every unmasked component goes to zero like exp(-r t): for the posture task (joints whose configuration is one number), the centre-of-mass task, the position part of the SE3 task with world axes, the position part with frame axes if the three gains are equal, and the position part of the two-frame task. The rate r and the constant depend on the gains only. With kd = 2 sqrt(kp) the posture error is (e0 + (d0 + w e0) t) exp(-w t), w = sqrt(kp); the error of the angular momentum task is exactly e0 exp(-kp t).", "quantifier": "all positive gains, robots, masks, reference trajectories with their derivatives, initial errors and times", "why_tests_cant": "A test runs one trajectory for a finite time from one start; convergence with uniform constants for all robots, references and starts is a statement about all solutions of a differential equation.", "anchors": ["src/tasks/task-joint-posture.cpp:123-139", "src/tasks/task-com-equality.cpp:93-130", "src/tasks/task-angular-momentum-equality.cpp:74-94", "src/tasks/task-se3-equality.cpp:136-205", "src/tasks/task-two-frames-equality.cpp:103-167"]}
{"id": "C90", "title": "Exactly which gains make the sampled posture loop stable", "statement": "The tutorials integrate with the mean velocity (q + dt (v + dt/2 a), v + dt a), the unit tests update the velocity first. With a fixed reference and sampling time dt, every posture loop with gains kp, kd brings error and velocity to zero if and only if 0 < kp, kp dt < 2 kd and kd dt < 2 (tutorials), respectively 0 < kp, 0 < kd and 2 kd dt + kp dt^2 < 4 (tests). For kd = 2 sqrt(kp): sqrt(kp) dt < 1, respectively sqrt(kp) dt < 2 sqrt(2) - 2.", "quantifier": "all sampling times dt > 0, all real gains, all robots and initial states", "why_tests_cant": "Stability is the limit of infinitely many control periods for all initial states; the exact boundary in the gains cannot be sampled.", "anchors": ["src/tasks/task-joint-posture.cpp:123-139", "exercizes/tsid_biped.py:213-217", "exercizes/tsid_manipulator.py:111-115", "tests/tasks.cpp:97-98", "tests/tsid-formulation.cpp:301-302"]}
{"id": "C91", "title": "The problem of the exercise biped depends only on the feet in contact", "statement": "TsidBiped's constructor succeeds for accepted weights and leaves both feet in contact. After any sequence of add_contact_*/remove_contact_* calls (a foot added when its flag is down, removed without transition time when its flag is up) interleaved with computeProblemData and getters, the HQP data has exactly the constraints, weights, kinds, sizes and the counters nVar, nEq, nIn of the feet whose flags are up, and the next call by the rules succeeds. The walking loop of ex_4_walking.py obeys these rules and follows contact_phase for every plan whose first phase is on the right foot. Three readings are refuted: a plan that starts on the left foot (wrong foot, duplicated contact, assertion failure in debug builds), adding a foot that is in contact, and removal with a transition time (flag down while the contact stays).", "quantifier": "every robot size, all weights, every sequence of calls, every contact plan, every number of iterations, debug and release builds, every scalar type", "why_tests_cant": "The exercises are scripts without tests and run one plan; drift of the problem against the flags shows only for particular call sequences.", "anchors": ["exercizes/tsid_biped.py:32-157", "exercizes/tsid_biped.py:263-301", "exercizes/ex_4_walking.py:122-146", "src/formulations/inverse-dynamics-formulation-acc-force.cpp: addRigidContact, removeRigidContact"]}
{"id": "C92", "title": "What the centre of pressure plots of the walking exercise show", "statement": "ex_4_walking.py plots (w[4]/w[2], -w[3]/w[2]) of the contact wrench as the centre of pressure. For a foot whose points are in the plane z = h with vertical normal, the plotted values are h F_x/F_z - c_x and h F_y/F_z - c_y where c is the true centre of pressure in that plane; so they are its mirror image. For feet longer in front than behind (ex_4_conf.py) there are feasible forces for which the plotted value lies outside the drawn foot edges although the centre of pressure is on the edge of the foot.", "quantifier": "all feet with coplanar points, all contact forces with non-zero normal force, all friction coefficients and force limits of the stated ranges", "why_tests_cant": "The plots are looked at by eyes only; sign and offset are hidden when the foot is symmetric or the forces vertical.", "anchors": ["exercizes/ex_4_walking.py:175-189", "exercizes/ex_4_walking.py:281-287", "exercizes/tsid_biped.py:37-39", "exercizes/ex_4_conf.py:25-37", "src/contacts/contact-6d.cpp: updateForceGeneratorMatrix"]}
{"id": "C93", "title": "Taking a constraint out of the HQP data by its name", "statement": "removeFromHqpData(name), public and offered in Python, returns true exactly when a constraint of that name is in the HQP data; afterwards the HQP data is the one before without that constraint, nVar, nEq, nIn, the contacts and every answer of the getters are unchanged, so nEq and nIn exceed the rows of level 0 by the rows of that constraint. computeProblemData then gives the data it would have given, without the constraint; updateTaskWeight returns false. removeTask of the same name gives in a release build the state it would have given without the call and fails an assertion in a debug build. For a constraint of a contact, removeRigidContact of that contact gives the same HQP data but returns false, and leaves the rows of the motion constraint counted in nEq if that was the constraint taken out; in a debug build it fails an assertion. Not guaranteed: that the equations of motion stay in the problem (base-dynamics can be taken out), that adding a contact and computing stays in range.", "quantifier": "all scalar types, robots, reachable states of the formulation with distinct names, names, times, robot data", "why_tests_cant": "The effects appear only in later calls and differ between debug and release builds; the counters and the data are equal as long as the constraint has no rows.", "anchors": ["include/tsid/formulations/inverse-dynamics-formulation-acc-force.hpp:104", "src/formulations/inverse-dynamics-formulation-acc-force.cpp:579-593", "src/formulations/inverse-dynamics-formulation-acc-force.cpp: removeTask, removeRigidContact, computeProblemData", "bindings/python/formulations/formulation.hpp:117"]}
{"id": "C94", "title": "In closed loop the orientation of the SE3 and two-frames tasks converges to its reference", "statement": "If at every time t >= 0 the SE3 task (local or world axes) is computed at the current state with equal positive angular gains kp, kd and no masked angular component, the commanded acceleration satisfies its constraint, the robot moves with that acceleration, and the start obeys kp theta(0)^2 + |w_err(0)|^2 <= kp m^2 for some m < pi (theta the angle between frame and reference, w_err the difference of their angular velocities), then kp theta^2 + |w_err|^2 never exceeds its initial value and theta never exceeds m, however fast the reference turns. If moreover the angular velocity of the reference is bounded, theta and w_err go to zero exponentially, with constants that depend on the gains, m and that bound only. The same holds for the relative orientation of the two frames of the two-frames task.", "quantifier": "all positive gains, robots, linear gains and masks, reference rotations with their derivatives, starts within the energy bound, and times; all log3 that return axis times angle below a half turn", "why_tests_cant": "A test integrates one motion from one start. Convergence on the rotation group for all references and starts, with uniform constants, and the fact that the half turn where log3 jumps is never reached, are statements about all solutions of a nonlinear time-varying differential equation.", "anchors": ["src/tasks/task-se3-equality.cpp:136-205", "src/tasks/task-two-frames-equality.cpp:103-167", "src/math/utils.cpp:34-41"]}
{"id": "C95", "title": "In closed loop contacts hold their placement", "statement": "Let a contact (point, 6d, two frame positions) be constructed and given any calls amounting to fixed gains, placement and axes; let it be computed at every time at the current state, let the acceleration satisfy its motion rows and the robot move with it. If the contact frame starts on the placement at rest, it stays there for ever, at rest, for all gains of any size and sign, the zero gains of the constructor included (point: position; 6d: position and orientation; two frames: the two origins stay together and move at the same velocity). If it starts off the placement and the gains are positive (equal on the three axes where they act in the axes of the frame, below a half turn for the orientation), it returns exponentially, with constants depending on the gains and the bound on the angle only. With the gains of the constructor a point contact that moves keeps its velocity for ever.", "quantifier": "all histories of calls, gains, placements, robots, motions satisfying the rows, and times; all log3 that return axis times angle below a half turn", "why_tests_cant": "A test integrates one motion with one set of gains. That no other motion satisfies the rows, for gains of any sign and in rotating axes, is a uniqueness statement about differential equations whose right-hand side is not Lipschitz at the half turn.", "anchors": ["src/contacts/contact-point.cpp:16-45", "src/contacts/contact-point.cpp:103-128", "src/contacts/contact-point.cpp:178-190", "src/contacts/contact-6d.cpp:133-136", "src/contacts/contact-6d.cpp:199-207", "src/contacts/contact-two-frame-positions.cpp:100-113", "src/contacts/contact-two-frame-positions.cpp:140-148", "src/tasks/task-se3-equality.cpp:136-205", "src/tasks/task-two-frames-equality.cpp:103-167"]}
{"id": "C96", "title": "In closed loop the capture point task keeps capture point and centre of mass over the support", "statement": "Let the capture point task, with limits lo and hi (support limits less margins), be computed in every control period, let the acceleration satisfy its constraint and the centre of mass move with it for the period dt of the task, at constant height. Then the capture point p + v/w, w = sqrt(g/height), is inside the limits at all samples after the first, wherever it starts. If w dt <= 2 and centre of mass and capture point start inside, the centre of mass never leaves the limits, between samples included; from outside its distance to the limits shrinks by the factor (1 - w dt/2)/(1 + w dt/2) each period; inside, its speed is at most w (hi - lo). For any dt it stays bounded. With a longer period the centre of mass can leave the limits, and when it rises the capture point can.", "quantifier": "all histories of the task, robots, limits, margins, starts, accelerations satisfying the constraint, numbers of periods", "why_tests_cant": "A test simulates finitely many periods of one robot. Staying over the support for ever, for every choice the solver makes, is an invariant of all infinite runs.", "anchors": ["src/tasks/task-capture-point-inequality.cpp:20-46", "src/tasks/task-capture-point-inequality.cpp:85-119"]}
{"id": "C97", "title": "A robot given the torques of the controller does what was planned", "statement": "Let the formulation be reached by any well-formed calls, computeProblemData be called with the data of the robot, a solver after any history report OPTIMAL (its external solver being exact), and getActuatorForces return tau. Let the robot obey its equations of motion under tau with some actions of the ground at the contacts, with a positive definite mass matrix, all contacts being hard and the feet having the accelerations their contacts ask for. Then the accelerations of the robot are those of getAccelerations, every level-0 motion task holds for the real motion, and if the contacts are independent the ground gives exactly the planned forces. A foot at rest on its placement meets the condition whatever the gains. A foot held off its placement, with a gain on the error, makes the planned accelerations impossible. Such a period of control exists whenever some consistent motion exists.", "quantifier": "all histories of formulation and solver, back-ends, robot data, ground actions and real accelerations", "why_tests_cant": "A test simulates one robot in one state and integrates with the planned accelerations. That the equations of motion leave the real robot no other motion is a uniqueness statement over all accelerations and ground actions.", "anchors": ["src/formulations/inverse-dynamics-formulation-acc-force.cpp:243-401", "src/formulations/inverse-dynamics-formulation-acc-force.cpp:403-424", "src/contacts/contact-6d.cpp:201-206", "src/contacts/contact-point.cpp:178-190", "src/solvers/solver-HQP-eiquadprog-fast.cpp:78-182"]}
{"id": "C98", "title": "Level-0 tasks reach their references through formulation, solver, robot and ground", "statement": "If at every time t >= 0 the controller runs as in C97 on the data of the current state, its torques go to a robot that obeys its equations of motion with positive definite mass matrix, all contacts are hard and rest on their placements, and the task is at level 0 with positive gains, then the error of the task and its derivative go to zero exponentially, with constants that depend on the two gains only: centre of mass, joint posture, position of a frame in world axes. No hypothesis is made on the accelerations other than the equations of motion and the feet resting.", "quantifier": "all robots, histories, contacts and their gains, other tasks, references, gains and times", "why_tests_cant": "A test integrates one controlled motion for a finite time from one state. Convergence for all robots and all motions the equations of motion allow is a statement about all solutions of differential equations with the whole controller in the loop.", "anchors": ["src/formulations/inverse-dynamics-formulation-acc-force.cpp:243-424", "src/tasks/task-com-equality.cpp:93-131", "src/tasks/task-joint-posture.cpp:123-141", "src/tasks/task-se3-equality.cpp:136-205"]}
{"id": "C99", "title": "Soft tasks are traded by their weights: best motion, bounds, and the effect of updateTaskWeight", "statement": "Let the formulation be reached by any well-formed calls, computeProblemData be called, and a solver after any history report OPTIMAL (its external solver being exact). Then the motion (accelerations, contact forces and the torques they need) respects all hard constraints, and among all motions that do it has the smallest sum of weight times squared error of the level-1 tasks, contact motions and force regularisations, plus r times the squared variables, r being 0 with ProxQP and OSQP and 1e-8 with the others. The error of a task is at most the one any such motion z has plus (the weighted rest of z)/weight; if some z meets all soft tasks, weight times error is at most r times the squared variables of z. updateTaskWeight that returns true changes that weight to the given one and no other; raising the weight of a task never increases its error and never decreases the weighted sum of the others. The weights are non-negative if the calls that do not check them are given non-negative ones; updateTaskWeight accepts negative ones.", "quantifier": "all histories of formulation and solver, back-ends, robot data, tasks, contacts, weights and competing motions", "why_tests_cant": "Optimality compares the answer with all motions that respect the constraints, and monotonicity compares two optimisation problems for all data; a test evaluates one problem and a few candidates.", "anchors": ["src/formulations/inverse-dynamics-formulation-acc-force.cpp:85-233", "src/formulations/inverse-dynamics-formulation-acc-force.cpp:243-401", "src/solvers/solver-HQP-eiquadprog-fast.cpp:78-182", "src/solvers/solver-proxqp.cpp:78-250"]}
{"id": "C100", "title": "The order in which tasks, contacts and measured forces were added does not change the motion", "statement": "Two formulations on which computeProblemData was called with the same data, that hold the same tasks, contacts and measured forces with the same weights and levels, reached by any two histories of calls, and whose problems were solved (exact external solver, a back-end with regularisation, non-negative weights), give the same accelerations, the same force at each contact and the same torques, provided that each force task acts on the force of a contact present. Without this proviso it is false: a force task with no associated contact acts on the force variables by their place, so the order of addRigidContact decides which contact it concerns.", "quantifier": "all pairs of histories, robot data, tasks, contacts, weights, solver histories", "why_tests_cant": "A test compares a few orders of one scene. Independence of the order is a statement over all permutations and all histories, and needs the uniqueness of the optimum.", "anchors": ["src/formulations/inverse-dynamics-formulation-acc-force.cpp:85-207", "src/formulations/inverse-dynamics-formulation-acc-force.cpp:331-361", "src/formulations/inverse-dynamics-formulation-acc-force.cpp:508-566"]}
{"id": "C101", "title": "The text of a problem tells its structure", "statement": "If HQPDataToString, or print() of the Python object, gives the same text for two problems, then these have the same number of levels, each with the same constraints in the same order: same name, class (equality, inequality, bound), number of rows and columns, and a weight written in the same way; with printMatrices the written matrices are the same too. This holds for all problems whose constraint names have no line end. For the problem of a formulation the text can be produced at any time of any history of calls. A name with a line end makes the claim false: one constraint can read as two.", "quantifier": "all pairs of problems, all names, weights and constraints; all histories of calls of a formulation", "why_tests_cant": "A test compares the text of a few problems. That no two different problems share a text is a statement over all pairs, with arbitrary names that may themselves contain the separators.", "anchors": ["src/solvers/utils.cpp:13-62", "include/tsid/bindings/python/utils/container.hpp:87-108"]}
{"id": "C102", "title": "The joint space program follows its references", "statement": "The program of exercizes/ex_0_ur5_joint_space_control.py (one posture task at level 1, kd = 2 sqrt(kp), SolverHQuadProgFast, integration of the accelerations of the solution) makes any number of turns: no call throws, nothing is undefined, each status is OPTIMAL, and the time after n turns is n dt. Each solution has the desired acceleration scaled by weight / (weight + 1e-8), and zero for joints outside the mask. If weight >= 7e-8 and sqrt(kp) dt <= 1/2 then, for any reference that is three times differentiable, with acceleration bounded by A and third derivative by B, the distance of each joint of one number to its reference after n turns is at most (1 - sqrt(kp) dt / 2)^n times a number given by the start, plus (4/3 dt B + 3 (1e-8 / (weight + 1e-8)) A) / kp; the velocity obeys a similar bound.", "quantifier": "all numbers of turns, robots, weights, gains, periods and references within the stated conditions; all exact external solvers", "why_tests_cant": "A test runs a few thousand turns of one robot with one reference. The bound is for all turns and all references, and includes the effect of the sampling and of the regularisation of the solver.", "anchors": ["exercizes/ex_0_ur5_joint_space_control.py:26-124", "exercizes/ur5_conf.py:14-30", "src/tasks/task-joint-posture.cpp:124-139", "src/solvers/solver-HQP-eiquadprog-fast.cpp:72-218"]}
{"id": "C103", "title": "The manipulator program applies the best admissible acceleration at every turn", "statement": "The program made of the class TsidManipulator and the loop of exercizes/ex_1_ur5.py (posture and end-effector tasks at level 1 with kd = 2 sqrt(kp), torque and velocity bounds at level 0, SolverHQuadProgFast, integration of the accelerations of the solution) can be constructed without an exception or undefined behaviour. Each turn applies, among the accelerations that keep the next velocity within +-vmax, the torques within +-taumax and the accelerations within +-1e10, the one with the least cost: wp times the squared error of the posture acceleration, plus we times the squared errors of the masked end-effector accelerations (in the local frame or in world axes), plus 1e-8 times its squared norm. The torques are mass * acceleration + bias forces. The loop goes on exactly as long as such an acceleration exists, so the limits hold after every turn; if the motors can hold the arm at every velocity within the limits, it never stops. The velocities that are plotted are one period ahead. A solver that reports contradicting constraints as EIQUADPROG_FAST_INFEASIBLE instead of EIQUADPROG_FAST_UNBOUNDED never ends the loop after its first success, and the torques can exceed the limits.", "quantifier": "all numbers of turns, robots, end-effector frames, references, weights, gains, masks, limits and periods within the stated conditions; all exact external solvers", "why_tests_cant": "A test runs one arm with one reference and compares numbers. That each applied acceleration is the best of all admissible ones, that the loop ends exactly when there is none, and that limits hold for ever are statements about all accelerations, states and turns.", "anchors": ["exercizes/tsid_manipulator.py:20-86", "exercizes/tsid_manipulator.py:111-115", "exercizes/ex_1_ur5.py:38-100", "exercizes/ex_1_ur5.py:159-166", "exercizes/ur5_reaching_conf.py:14-37", "src/solvers/solver-HQP-eiquadprog-fast.cpp:157-218"]}
{"id": "C104", "title": "The total centre of pressure recorded beside the reference of the CoP task", "statement": "test_cop_task.py records a centre of pressure of all contacts (the points recorded for the feet, placed in the world and weighted with the normal forces; a foot below 1e-3 N is recorded at its frame origin) and draws it beside the reference of the CoP task. Natural reading: with the CoP task satisfied the record is the reference. False: over soles at height h of level feet the record is 2*(mean of the foot origins weighted with the loads) - (true centre of pressure) + h*F/Fz, so with h = 0 and the task satisfied it is 2*mean - reference. It is the reference only where the reference is that mean. (The points recorded for single feet are the ones of C92.)", "quantifier": "all contact points at one height, all forces, all placements of the two feet turned about the vertical, one or two feet in contact, all references", "why_tests_cant": "The script only plots; with the reference near the middle of the feet the two curves are close. The relation between record, forces and reference holds for all forces and placements.", "anchors": ["exercizes/test_cop_task.py:151-176", "exercizes/ex_4_walking.py:173-189", "exercizes/ex_4_talos_conf.py:28-33", "src/contacts/contact-6d.cpp:120-128", "src/tasks/task-cop-equality.cpp:38-71"]}
{"id": "C105", "title": "Recorded foot positions, velocities and accelerations", "statement": "get_LF_3d_pos_vel_acc and get_RF_3d_pos_vel_acc of TsidBiped give the foot position, velocity and acceleration that the exercises plot against the references given to set_LF_3d_ref / set_RF_3d_ref. Natural reading: velocity and acceleration are the derivatives of the position. True for the position (world axes). The velocity is the derivative in the axes of the foot, so it is the derivative of the recorded position exactly when the rotation of the foot leaves it fixed; the acceleration is the second derivative in the axes of the foot too if the task uses the local frame (the default, which TsidBiped keeps), in world axes otherwise. For a foot turned by a quarter the recorded velocity is orthogonal to the real one.", "quantifier": "all motions of the joint carrying the foot, all frame placements, all instants, all accelerations dv that the Jacobian and drift describe", "why_tests_cant": "The exercises walk straight with feet parallel to the world axes, where the two readings coincide. The statement relates derivatives along arbitrary motions.", "anchors": ["exercizes/tsid_biped.py:230-261", "exercizes/ex_4_walking.py:167-172", "src/robots/robot-wrapper.cpp:203-239", "src/tasks/task-se3-equality.cpp:122-124"]}
{"id": "C106", "title": "The biped of the exercises applies the best possible motion in every period", "statement": "TsidBiped in any state reached by adding, removing and computing: computeProblemData and solve with an exact solver give, among the accelerations and forces that respect the base dynamics, the friction cones of the feet on the ground, hard contacts (w_contact < 0) and the torque and joint bounds that are switched on, the one of least price w_com*com + w_cop*cop + w_am*am + w_posture*posture + w_foot*(both feet) + for each foot on the ground w_contact*motion + w_forceRef*force, plus r times the squared norm. It is the only one with a regularised back-end, and an answer exists as soon as some motion is possible. getAccelerations, getContactForces, getContactForce and getActuatorForces read this motion, its forces and the torques it needs. For feet on the ground the task of the foot has no influence when the contact is hard; when it is soft, contact and task act as one task with the sum of the weights and the mean of the accelerations.", "quantifier": "all histories of adding and removing feet and computing within the stated rules, all robots, weights, friction data, task data of the right sizes, all exact back-ends", "why_tests_cant": "The exercises run one robot along one plan and look at plots. The statement names the whole problem solved in every period of every history, and says that nothing else (order of the calls, feet lifted before, memory of earlier problems) has an influence.", "anchors": ["exercizes/tsid_biped.py:32-157", "exercizes/tsid_biped.py:263-301", "src/formulations/inverse-dynamics-formulation-acc-force.cpp:243-456", "src/solvers/solver-HQP-eiquadprog-fast.cpp:72-218"]}
{"id": "C107", "title": "Feet standing before the walk", "statement": "TsidBiped puts two SE3 tasks on the frame of each foot: the one of the contact and a foot task. Natural reading: a foot that stands at rest where its contact holds it is asked to stay. Both tasks have the same rows, so together they ask for the mean of the two accelerations, weighted with w_contact and w_foot; with equal gains along the axes the position held is the mean of the two references weighted with weight times gain. The constructor gives the foot tasks no reference, and ex_4_walking.py sets one only from i = 0 on; until then the reference is the origin of the world. So the reading is false: during T_pre the foot is asked for the acceleration -(w_foot kp_foot / (w_contact + w_foot)) R^T p, zero only if the foot is at the origin of the world.", "quantifier": "all calls made to the two tasks, all weights and gains, all placements and velocities of the foot", "why_tests_cant": "With w_contact a hundred times w_foot the displacement is about one percent of the distance to the origin, invisible in the plots, and the script does not check it. The statement is about all weights and placements.", "anchors": ["exercizes/tsid_biped.py:44-126", "exercizes/ex_4_walking.py:119-147", "exercizes/ex_4_conf.py:56-73", "src/tasks/task-se3-equality.cpp:22-45", "src/contacts/contact-6d.cpp:22,199-206"]}
{"id": "C108", "title": "What the feet of the walking biped are asked to follow", "statement": "For a foot of TsidBiped, after any sequence of remove_contact, add_contact, set_LF/RF_3d_ref and computeProblemData (rejected calls included): every computeProblemData succeeds, and the constraint of the foot task is the PD law towards exactly one target: the world origin at rest if the task was never given a reference; position, velocity and acceleration of the last accepted set_3d_ref with the orientation the foot had in the constructor; or, if remove_contact came last, the placement the foot had at the last computeProblemData, at rest. The contact, while it is in the formulation, holds the placement the foot had at the computeProblemData before the last add_contact (the constructor's if there was none), so in its first period it pulls a foot that moved back by the motion of one period. In the loop of ex_4_walking.py the target in iteration i is the origin for i < 0, column i of the plan for 0 <= i < N and the last column, with its velocity and acceleration, afterwards; the reference given by remove_contact is never used and the orientation is always that of the constructor. Claims that a swinging foot keeps the orientation it had on the ground, and that an added contact holds the foot where it is, are refuted.", "quantifier": "all call sequences, all plans, phases, gains, data and numbers of periods", "why_tests_cant": "The target depends on the whole order of calls and on copies of samples made in Python; a run of one gait with flat feet cannot show which orientation or which period's placement is used.", "anchors": ["exercizes/tsid_biped.py:66-80", "exercizes/tsid_biped.py:107-122", "exercizes/tsid_biped.py:147-155", "exercizes/tsid_biped.py:230-301", "exercizes/ex_4_walking.py:119-146", "src/trajectories/trajectory-se3.cpp", "src/tasks/task-se3-equality.cpp:78-98", "include/tsid/bindings/python/trajectories/trajectory-base.hpp", "include/tsid/bindings/python/trajectories/trajectory-se3.hpp"]}
{"id": "C109", "title": "Contact buttons pressed while the balance exercise runs", "statement": "In exercizes/ex_3_biped_balance_with_gui.py the window thread adds and removes feet while the simulation thread calls computeProblemData, solve and getAccelerations without a lock. For every interleaving of these calls in which no foot is removed between computeProblemData and solve: the problem is always the one of the feet that the flags announce, every call returns, a button pressed after solve does not change the accelerations that are read (robots with at least 24 velocities), and without a button in between the solver is given exactly the problem of the present contacts. If a foot is added between computeProblemData and solve, resizeHqpData has erased the data of all constraints: the unique optimum is the zero vector and the robot is given zero acceleration, base dynamics and contacts being ignored in that period. The claim that a button may be pressed at any time is refuted: for every reachable state, removing a standing foot between computeProblemData and solve gives the solver constraints with different numbers of columns; and with fewer than 24 velocities the read after solve can be out of bounds.", "quantifier": "all interleavings of any length, all robots, weights, data, solver answers, both builds", "why_tests_cant": "The outcome depends on where a thread switch falls between two calls; a test runs one schedule.", "anchors": ["exercizes/ex_3_biped_balance_with_gui.py:88-104", "exercizes/ex_3_biped_balance_with_gui.py:174-197", "exercizes/ex_3_biped_balance_with_gui.py:285-289", "exercizes/tsid_biped.py:263-301", "src/formulations/inverse-dynamics-formulation-acc-force.cpp", "src/solvers/solver-HQP-eiquadprog-fast.cpp", "include/tsid/bindings/python/solvers/HQPData.hpp"]}
{"id": "C110", "title": "Soft contacts and tasks never make the controller infeasible", "statement": "If addRigidContact is always called with priority level 1, motion and force tasks are equalities at level 1, weights are not negative and only actuation tasks are hard, then after computeProblemData the problem can be solved whenever the mass matrix is positive definite, every contact admits at least one force and the hard actuation tasks admit at least one torque vector; moreover every torque vector that meets the hard actuation tasks can be realised by accelerations and forces that respect all hard constraints. Point, 6d and two-frame contacts with fMin <= fMax (and a normal that is not degenerate, mu > 0, 2 mu fMax <= 1e10, fMax >= 0) admit a force. With one contact at level 0 this is false: the same conditions hold and no vector respects the hard constraints.", "quantifier": "all robots, data, histories of well-formed soft calls of any length, both builds", "why_tests_cant": "That a solution exists is a claim about all robots and all states; a test sees the solver succeed on the states it visits.", "anchors": ["src/formulations/inverse-dynamics-formulation-acc-force.cpp", "src/contacts/contact-point.cpp", "src/contacts/contact-6d.cpp", "src/contacts/contact-two-frame-positions.cpp", "demo/demo_quadruped.py:98-106", "demo/demo_tsid_talos_gripper_closed_kinematic_chain.py:106-120"]}
{"id": "C111", "title": "The gripper and quadruped demos run, can always be solved and respect torques and forces", "statement": "The calls of demo_tsid_talos_gripper_closed_kinematic_chain.py (6 setup calls, then computeProblemData, getActuatorForces, getAccelerations per period) and of demo_quadruped.py (four soft point contacts, CoM and posture task, forces printed in arbitrary turns) all return, for any number of periods. In each period an exact solver has an answer if the mass matrix is positive definite (and, for the gripper, no effort limit is negative). For any answer of an exact solver: gripper: getActuatorForces, called at any time among the getters, gives torques within the effort limits, exactly 0 for joints 0 and 1, the closing forces are within 1000, and mass times acceleration plus bias equals these torques plus the effect of these forces; quadruped: every paw force lies in its friction pyramid with normal component in [1, 100], the paw forces alone explain the motion of the base, getContactForce(name) is the force of that paw. Any answer minimises the weighted squared errors the program asks for (weights 1, 1/1000, 1, 1/100000 and the regularisation of the back-end) among exactly the motions with such torques and forces, and is the only minimiser when the back-end is regularised. The kinematic chain itself need not stay closed: for some robot every answer violates the closure constraint.", "quantifier": "all robots (number of joints, mass, bias, Jacobians), task and contact data, numbers of periods, orders of getters, both builds", "why_tests_cant": "The demos run on one robot with a viewer and look at it; that each period can be solved and that the returned torques are admissible is a claim about all data.", "anchors": ["demo/demo_tsid_talos_gripper_closed_kinematic_chain.py:63-193", "demo/demo_quadruped.py:88-203", "src/formulations/inverse-dynamics-formulation-acc-force.cpp", "src/tasks/task-actuation-bounds.cpp", "src/contacts/contact-point.cpp", "src/contacts/contact-two-frame-positions.cpp"]}
{"id": "C112", "title": "Task weights changed while the biped runs; the walk with the centre of pressure task", "statement": "On the biped of exercizes/tsid_biped.py, updateTaskWeight may be called at any time among the contact calls, computeProblemData and the getters: it answers true for the four soft tasks com, cop, am, posture and false, changing nothing, for the two bounds; every call returns; and in each period the command is the best admissible motion for the weights given last (the only one with a regularised back-end), whatever weights were used before, and the existence of an answer does not depend on the weights. The loop of exercizes/test_cop_task.py therefore runs through, stands on both feet before the start, on the foot named by contact_phase during the walk and on both feet again from sample N on, and tracks the centre of pressure with weight 0 before the start and 1e-4 from the start on. The last foot switch is right only if contact_phase ends with two equal entries: otherwise the foot on the ground is added a second time and the other one stays in the air. Raising the weight of the centre of pressure never makes its error larger, and with weight 0 its reference has no influence on the command.", "quantifier": "all robots, configurations, data, numbers of samples and phases, all orders of calls, all exact solvers", "why_tests_cant": "A run shows one sequence of weights and one planned walk; whether old weights leave a trace in a later problem, and whether the switch at the end is right for every plan, concerns all sequences.", "anchors": ["exercizes/test_cop_task.py:88-135", "exercizes/tsid_biped.py:32-157", "exercizes/tsid_biped.py:263-301", "src/formulations/inverse-dynamics-formulation-acc-force.cpp:150-163"]}
{"id": "C113", "title": "A constraint object is what its last successful calls made it", "statement": "For every sequence of resize, setMatrix, setVector, setLowerBound and setUpperBound on a ConstraintEquality, ConstraintInequality or ConstraintBound: matrix(), vector(), lowerBound() and upperBound() are what the last successful call for that part asked for (the constructor's value if there was none), resize gives zeros (the identity for the matrix of a bound), name and class never change, and a call that throws or returns false changes nothing. setMatrix throws exactly for another size, resize exactly for a bound with r <> c; the setters of another class assert, or return false with NDEBUG. If the vectors have as many entries as the constraint has rows, rows() and cols() are those of the last resize, the constraint is one the solvers accept, and checkConstraint decides it. Straight after a resize equalities and inequalities accept every vector and bounds only zero up to the tolerance. Not guaranteed: a matrix set on a bound is stored and reported but has no effect, and setLowerBound accepts any length.", "quantifier": "every class, constructor, sequence of calls including failing ones, build with or without NDEBUG, x and tolerance", "why_tests_cant": "the statement is over all sequences of calls; the tests set each part once", "anchors": ["src/math/constraint-base.cpp:26", "src/math/constraint-equality.cpp:26", "src/math/constraint-inequality.cpp:13", "src/math/constraint-bound.cpp:13", "include/tsid/bindings/python/constraint/constraint-bound.hpp:35"]}
{"id": "C114", "title": "The balance exercises move the centre of mass along their curve, and plot its acceleration with the wrong drift", "statement": "In the loop of ex_2.py (ex_1.py with amplitude 0), for every measured motion and every solver answer: no call on the centre of mass task fails; column i of the plots has the measured position and velocity, the reference offset + amp sin(2 pi f i dt) with its first and second derivatives, and com_acc_des = acc_ref - kp pos_err - 2 sqrt(kp) vel_err. The constraint given to the solver holds exactly when the true acceleration of the centre of mass is com_acc_des. If it holds in every period and the acceleration is constant between samples, with sqrt(kp) dt <= 1/2, the position error in column i is at most (1 - sqrt(kp) dt / 2)^i times a bound on the initial error plus 4/3 dt |(2 pi f)^3 amp| / kp; with a constant reference it gets below every bound. Not guaranteed: com_acc differs from com_acc_des by twice the drift even then. A robot at rest at the offset is asked for the acceleration 2 sqrt(kp) 2 pi f amp in the first period although the reference acceleration is 0.", "quantifier": "every number of joints and periods, gain, period, offset, amplitude, frequency, measured data and solver answers", "why_tests_cant": "the exercises are not run by the tests, and the bound is for all numbers of periods and all reals", "anchors": ["exercizes/ex_2.py:28", "exercizes/ex_2.py:42", "exercizes/ex_2.py:62", "exercizes/tsid_biped.py:86", "src/tasks/task-com-equality.cpp:68", "src/tasks/task-com-equality.cpp:93"]}
{"id": "C115", "title": "Sliders and pushes of the balance exercise with a GUI", "statement": "In ex_3_biped_balance_with_gui.py, for every sequence of slider moves and pushes, every measured motion and every solver answer: no call on the centre of mass task fails, and each period asks for the acceleration -kp (com - ref) - 2 sqrt(kp) com_vel, where ref is com_0 plus a hundredth of the last slider values (the initial reference before the first move); the constraint holds exactly when the centre of mass has that acceleration. The extra computation made for a push leaves no trace in later periods. From any period on, while the sliders rest, the task is met and the acceleration is constant between samples, with sqrt(kp) dt <= 1/2, the distance to ref after i periods is at most (1 - sqrt(kp) dt / 2)^i times a bound on the distance and velocity in that period.", "quantifier": "every sequence of slider moves and pushes, number of joints, gain, period, measured data and solver answers", "why_tests_cant": "the exercise is interactive and not run by the tests; the statement is over all sequences of events", "anchors": ["exercizes/ex_3_biped_balance_with_gui.py:69", "exercizes/ex_3_biped_balance_with_gui.py:182", "exercizes/ex_3_biped_balance_with_gui.py:199", "exercizes/tsid_biped.py:139", "src/trajectories/trajectory-euclidian.cpp:20", "src/tasks/task-com-equality.cpp:93"]}
