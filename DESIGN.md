# Formal model of tsid in Rocq: design

Source: `/repo` (stack-of-tasks/tsid, pinned commit), read as text. Nothing was
built or run. Everything below is about a hand-written Gallina model; the only
link to the C++ is the reading of the code, so every definition cites the file
and lines it models and states its simplifications.

## 1. Modelling decisions

* **Scalars.** `Scalar.v` defines a record `num` (carrier, 0, 1, +, -, *, /,
  boolean `<=`, `<`, `==`, injection of rationals). All model functions are
  parametrised by it.
  - Structural theorems (counters, indices, frame conditions, "nothing stale")
    are proved for *every* `num`, with no law at all, so they also hold for
    IEEE doubles with rounding.
  - Order-only theorems assume a total order where needed.
  - Numeric theorems are proved for the instance `Rnum` (Coq's reals). There
    double arithmetic is idealised to exact arithmetic (no rounding, overflow,
    NaN). This is the main idealisation of the development.
  - `Doubles.v` defines the instance `Dnum`: Flocq's binary64, rounding to nearest,
    with infinities and one NaN. The theorems of C80-C82 are about this instance, with
    explicit rounding errors; the model functions are the same ones. Fused
    multiply-add and extended precision are not covered.
  - Witnesses and examples are computed with the instance `Qnum`.
* **Vectors/matrices** are records (size, entry function). Eigen block reads and
  writes check the dimensions; a failing `eigen_assert` is `Undef`.
* **Outcomes** (`Outcome.v`): `Ret s o` (normal return), `Exc s`
  (`std::invalid_argument`, with the object state at the time of the throw) and
  `Undef` (failed `assert`/`eigen_assert`, out-of-bounds access: aborts in debug
  builds, undefined behaviour with `NDEBUG`).
* **Pointers.** Constraints shared between the HQP data and the task/contact
  levels are cells of an append-only heap and are referred to by address, so
  aliasing and duplicate names behave as in the C++.
* **External code** (pinocchio, QP back-ends, clocks, streams) is an input: an
  environment/oracle argument universally quantified in the theorems. No axiom
  describes it.
* `unsigned` counters are `Z` (no wrap-around) and sizes are `nat`; where the code
  subtracts, the invariants show the result is non-negative.

## 2. Files (rocq/theories)

| file | content |
|---|---|
| `Scalar.v`, `Outcome.v`, `Linalg.v`, `ListUtil.v`, `RSum.v` | scalars, outcomes, vectors/matrices with checked Eigen operations, lists, finite sums over R |
| `Constraint.v` | model of `math/constraint-*.cpp` (resize, sizes, setters) |
| `Check.v` | model of `checkConstraint`, C28 |
| `Formulation.v` | model of `formulations/inverse-dynamics-formulation-acc-force.cpp`, all public methods, as a state machine |
| `FormSpec.v`, `FormDataSpec.v`, `FormPhysSpec.v` | specifications (what is present, what the data must be, physical consistency) |
| `FormInv*.v`, `FormOps.v`, `FormContact.v`, `FormSafe*.v`, `FormLevels.v`, `FormData.v`, `FormHist.v`, `FormZero.v`, `FormPhys.v`, `FormDecode.v`, `FormTrans.v`, `FormMain.v` | proofs about the formulation |
| `FormCheck.v`, `FormWitness.v`, `FormRefute.v` | decidable versions of the hypotheses, concrete histories, refutations |
| `FormNames.v` | histories in which tasks, contacts and measured forces are renamed |
| `Solvers.v` | model of the six QP back-ends: `resize`, `retrieveQPData`, `solve`, status mapping |
| `SolverSpec.v` | specification of the solvers |
| `SolverSizes.v`, `SolverHist.v`, `SolverSem.v`, `SolverCost.v`, `SolverMain.v`, `SolverExist.v` | proofs about the solvers |
| `SolverRefute.v` | concrete problems and refutations |
| `SolverSettings.v` | model of the setters of the back-ends and of the copy constructor of `SolverOSQP`, proofs |
| `SolverOutput.v`, `SolverOutputR.v` | the fields of `HQPOutput` other than x and status, `getObjectiveValue`, status names; proofs, concrete runs |
| `SolverRows.v` | rows of the QP and multipliers in terms of the constraints and tasks |
| `SolverReport.v` | messages of a debug build after an optimal solve |
| `LinearLoop.v`, `ClosedLoop.v`, `ClosedLoopR.v` | error dynamics of the motion tasks in continuous and sampled time; closed loops that exist |
| `Walking.v`, `WalkingSpec.v`, `WalkingP.v`, `WalkingQ.v`, `WalkingR.v` | the biped of `exercizes/tsid_biped.py` and the contact switching of `exercizes/ex_4_walking.py` as programs over the formulation (C91) |
| `PlotCop.v` | the centre of pressure plotted by `exercizes/ex_4_walking.py` (C92) |
| `RotLoop.v`, `RotLoop2.v`, `OrientLoop.v`, `OrientLoopR.v` | rotations with PD control: energy, trapping below a half turn, exponential decay; applied to the SE3 and two-frames tasks (C94); a principal logarithm and loops that exist |
| `ContactHold.v`, `ContactHoldP.v`, `ContactHoldR.v` | contacts in closed loop: uniqueness of the resting motion by a Gronwall argument, return by C89/C94, existing loops (C95) |
| `CaptureLoop.v`, `CaptureLoopR.v` | the capture point task in sampled closed loop, existing loops (C96) |
| `ObeyedPlan.v`, `ObeyedPlanP.v`, `ObeyedPlanR.v` | the robot under the torques of the controller: equations of motion, feet the ground holds, tasks in closed loop through formulation, solver and robot, existing robots (C97, C98) |
| `SoftTasks.v`, `SoftPlan.v`, `SoftSame.v`, `SoftOrder.v`, `SoftOrderR.v`, `FormWeights.v` | meaning of the cost of level 1 for the robot, the best motion and the effect of weights, formulations that hold the same things in another order, concrete scenes, signs of the weights (C99, C100) |
| `SampledTrack.v`, `JointTrack.v`, `JointProgram.v` | a sampled critically damped loop with a moving reference; a formulation with one posture task; the program of `exercizes/ex_0_ur5_joint_space_control.py` as a function (C102); viewer, printing and plots are left out, the program runs in real numbers, `pin.integrate` and the external solver are parameters |
| `ExactSolver.v`, `FormLooks.v`, `ArmProgram.v`, `ArmCase.v` | external solvers that find the optimum, and one of them; the invariant of a formulation without contacts; `exercizes/tsid_manipulator.py` and the loop of `exercizes/ex_1_ur5.py` as functions (C103); viewer, printing, recorded end-effector columns and file loading are left out (q0 is the configuration, as when there is no srdf), the reference is any function of time, real numbers; kinematics, `se3.integrate` and the external solver are parameters |
| `PressureRecord.v` | wrenches and total centre of pressure recorded by test_cop_task.py (C104) |
| `FootReport.v` | get_LF/RF_3d_pos_vel_acc of TsidBiped (C105) |
| `BipedBook.v`, `BipedPlan.v`, `BipedBest.v`, `BipedSizes.v` | the problem and the answer of TsidBiped in every period, in terms of weights, feet and task data (C106) |
| `BipedFeet.v` | contact and foot task on one frame (C106, C107) |
| `FootRefs.v`, `FootRefsP.v` | one foot of `exercizes/tsid_biped.py` with its task, contact, trajectory and samples, and its calls in `exercizes/ex_4_walking.py` (C108) |
| `GuiLoop.v`, `GuiLoopP.v` | the two threads of `exercizes/ex_3_biped_balance_with_gui.py` as interleavings of binding calls (C109) |
| `SoftContacts.v`, `SoftCalls.v`, `SoftContactsR.v` | histories in which only torques are hard, and what they leave possible (C110); no new code |
| `Sheets.v` | what a program that only adds soft contacts and tasks holds after each call (used for C111); no new code |
| `SheetBest.v`, `DemosBest.v` | such programs get the best motion under their hard constraints (C111); no new code |
| `Demos.v` | call sequences of demo_tsid_talos_gripper_closed_kinematic_chain.py and demo_quadruped.py (C111) |
| `CopWalk.v`, `CopWalkP.v` | the loop of `exercizes/test_cop_task.py` on the biped of `Walking.v`, with updateTaskWeight among the calls of the user (C112); the weights of the two foot tasks, which share one entry of the configuration, and those of the contacts are not changed |
| `ConstraintLife.v`, `ConstraintLifeP.v` | the constructors and setters of the three constraint classes as calls on one object (C113); not modelled: writing single entries through the references that `matrix()`, `vector()`, ... return in C++ |
| `ComProgram.v`, `ComProgramP.v` | the centre of mass task in the loop of ex_2.py and ex_1.py (C114); the robot, the other tasks and the solver are arbitrary inputs; that the centre of mass moves with constant acceleration between samples is a hypothesis of C114_follows and C114_constant only |
| `ComSliders.v`, `ComSlidersP.v` | the centre of mass task in the loop of ex_3_biped_balance_with_gui.py with its sliders and pushes (C115); the threads interleave between periods only; the velocity the push computes (`lstsq`) is part of the arbitrary measured data |
| `SolverText.v` | HQPDataToString and print() of the Python problem objects as functions to strings (C101); operator<< of doubles and of Eigen matrices are parameters |
| `SolverKept.v` | what the solvers return when they did not succeed, sizes of the output of the fixed-size back-end (C85) |
| `FormDrop.v`, `FormDropQ.v` | `removeFromHqpData` as a public call (C93); what fails afterwards |
| `FormSolver.v` | formulation followed by a solver (C55) |
| `Doubles.v`, `DoubleJoints.v`, `DoublePva.v`, `DoubleMasks.v`, `DoubleCases.v` | binary64 scalars; the joint bound tasks and masks in double arithmetic |
| `PyData.v` | model of the calls of `bindings/python/formulations/formulation.hpp` and `utils/container.hpp` that do not just pass their arguments on; proofs |
| `PyCopies.v` | the constraints the tasks return in Python (`bindings/python/tasks/*.hpp`); proofs |
| `TaskDims.v` | `dim()` of the tasks against their constraints |
| `Contacts.v` | model of `contacts/contact-6d.cpp`, `contact-point.cpp`, `contact-two-frame-positions.cpp`: parameters, force constraint, generator, regularisation task, all setters |
| `ContactSpec.v` | geometry of contacts in R^3 |
| `ContactProofs.v`, `ContactReal.v`, `ContactWrench.v`, `ContactRefute.v`, `ContactSetters.v` | proofs and refutations about contacts |
| `Masks.v`, `MaskReal.v` | model of the `setMask` loops of the joint tasks and what they select |
| `JointBounds.v` | model of `tasks/task-joint-bounds.cpp` and `tasks/task-joint-posVelAcc-bounds.cpp` |
| `JointSpec.v` | uniformly accelerated motion, stoppable states |
| `JointReal.v`, `JointLimits.v`, `JointViab.v`, `JointTask.v`, `JointPva.v`, `JointMaskSize.v`, `JointRefute.v`, `JointSetters.v` | proofs and refutations about the joint limit tasks |
| `JointTasks.v`, `JointTasksP.v`, `JointTasksR.v` | model of `task-joint-posture.cpp`, `task-actuation-bounds.cpp`, `task-actuation-equality.cpp` and proofs |
| `FrameTasks.v`, `FrameTasksP.v`, `FrameTasksR.v`, `FrameRefute.v`, `FrameSetters.v` | model of `task-se3-equality.cpp`, `task-two-frames-equality.cpp`, `task-com-equality.cpp`, `task-angular-momentum-equality.cpp`; masked rows; meaning over R; counterexamples |
| `ForceTasks.v`, `ForceCop.v`, `ForceTasksR.v`, `ForceSetters.v` | model of `task-cop-equality.cpp`, `task-capture-point-inequality.cpp`, `task-contact-force-equality.cpp`; moment balance and centre of pressure; capture point; leaky integral |
| `ContactMotion.v`, `ContactMotionP.v` | motion tasks owned by the contacts, on top of `FrameTasks.v`; proofs |
| `MeasuredForces.v`, `MeasuredForcesP.v` | model of `contacts/measured-3d-force.cpp`, `measured-6d-wrench.cpp`; proofs |
| `Recorders.v`, `RecordersP.v` | Statistics and Stopwatch; proofs |
| `FloatUtils.v` | isFinite, is_nan on Flocq binary64 |
| `MatrixFile.v` | writeMatrixToFile, readMatrixFromFile on bytes |
| `SvdUtils.v` | pseudo-inverses, damped solve, null space basis from an SVD oracle |
| `ConstTraj.v` | SE3ToVector, vectorToSE3, constant trajectories |
| `RobotModel.v`, `RobotModelR.v` | RobotWrapper: motor inertias, mass, frame kinematics; proofs |
| `Prop_*.v` | the property theorems only, closed by `exact`, each with `Print Assumptions`, plus non-vacuity examples |

## 3. Plan per property

| id | model and method |
|---|---|
| C01 | invariant over histories of the `Formulation` step function; false as stated (force task at level 0) -> `_refuted` + proof for histories that do not remove level-0 force tasks and use unique names |
| C02, C03 | invariant over all histories, any scalar |
| C04, C05, C06, C07, C20 | one-step laws from any reachable state, frame included |
| C08 | characterisation + refutation (motion task at level 0) |
| C09 | refutation (level = number of levels) + safety for smaller levels |
| C10 | refinement: computed HQP = specification function of the present entries; refutation for re-associated force tasks |
| C11, C12, C13 | algebra over R on the specification of C10 |
| C14 | proof for the first decode after a computation, refutation for a second solution |
| C15 | from C03 |
| C16, C17 | per-step laws for transitions + refutations (start force below minimum throws; two transitions in one step; immediate removal while pending) |
| C18 | permutation invariance over R, frame for any scalar |
| C19 | proof when the contact is present, refutations for removed contact and re-association |
| C21-C24 | equivalence by induction over the constraint lists; qpmad refuted for bounds |
| C25-C27 | model of the solver objects as state machines |
| C28 | direct |
| C29-C33 | vectors of R^3, `nra`/ring; setter state machine by induction |
| C34-C39 | scalar (per joint) model of the bound tasks over R; invariants over steps |
| C40-C45 | list/matrix models of the tasks |
| C46-C53, C67, C68, C71 | utilities: recorders as state machines, files as byte lists, SVD as an oracle satisfying its defining equations |
| C54 | safety invariant over all histories of calls |
| C55 | formulation and solver composed |
| C56, C57, C73 | joint limits: masks, disabled limits, viability warning |
| C58-C63 | posture, actuation and frame tasks: masks, gains, getters |
| C64-C66 | force tasks |
| C74, C75 | invariants over histories of the contacts' motion tasks and of the measured forces |
| C76 | the invariants of C01-C03 and C54 over histories with renamings; exact effect of renaming a present object |
| C77, C78 | invariant over histories of setters interleaved with the solver calls of C21-C27; members of the class and settings of the library object are kept apart |
| C80, C81 | rounding errors of each operation composed with the proofs over the reals; signs and order without bounds on magnitudes |
| C82 | integers up to 2^53 are exact, induction over summation trees |
| C83 | invariants over histories after the call that made the data object |
| C84 | the invariants of the tasks; a problem with constraints of different widths in any solver |
| C85, C87 | the state machine of the solvers extended by the other output fields, refinement to it; invariant over histories |
| C86 | induction over the constraint list; gradient of the cost of C22, expansion of the quadratic cost along a direction |
| C88 | loop over level 0 against an inductive specification of the messages |
| C89 | Lyapunov function and mean value theorem, from the meaning theorems of the tasks (C41, C60) |
| C90 | Jury conditions for plane linear iterations, both directions; orbits realised by a one-joint robot |
| C91 | the HQP data without contents as a list of labels, its change by every call; the flags of the biped determine it up to order |
| C92 | meaning of the force generator matrix and of the friction rows applied to the plotted quotients |
| C93 | the call is a filter on the HQP data; filling the data, the getters and the removal of contacts commute with it |
| C94 | energy kp theta^2 + |w_err|^2 with a cross term as Lyapunov function, cofactor identities of rotations, continuity argument by completeness; log3 assumed principal below a half turn |
| C95 | C74 gives the law after any calls; |e|^2 + |v|^2 obeys a Gronwall inequality for gains of any sign, also in rotating axes and for the angle of a rotation; return by the decay lemmas of C89 and C94 |
| C96 | C44 gives the capture point at the end of the period; the next centre of mass is a weighted mean of the present one and the two capture points, induction over the periods; lowest point of a parabola within a period |
| C97 | the answer of the solver is physical (C55), its decoded torques solve the equations of motion (C04, C52); the difference between real and planned accelerations keeps the feet, so the ground does no work on it and its quadratic form under the mass matrix is zero |
| C98 | C97 puts the real accelerations on the constraint of the level-0 task, C89 gives the convergence |
| C99 | least squares of level 1 rewritten as errors of tasks and contacts (each entry is found from its owner), optimality of the exact answer (C55); two optima compared crosswise |
| C100 | a bijection between the motions of the two formulations (the blocks of contact forces rearranged) keeps hard constraints, errors and size; uniqueness of the regularised optimum |
| C101 | the text is cut at the first line end, the last colon and the separators after it; induction on levels and constraints; the hypothesis on operator<< for doubles (no colon, no line end) is explicit |
| C102 | the unique optimum of a diagonal least squares gives the acceleration (C99 for one task); an invariant of the turns gives defined calls and status OPTIMAL; Taylor bounds for the reference over a period, a weighted maximum norm of the error contracts by 1 - sqrt(kp) dt / 2; a solver in closed form shows that exact solvers exist |
| C103 | an invariant of the turns (state of the formulation, of the four tasks and of the solver); the assembled problem has `admissible` as hard constraints and half `cost` as objective (C99 for two soft tasks); the optimum exists by C55 and is unique, a solver picks it by definite description; a counterexample with one joint and bias forces 2 - 16 v |
| C104 | the generator rows give the moment about the frame origin; the CoP equation (no horizontal moment about c) is solved for c; for the total the feet are summed with their rotations about the vertical and compared with `true_cop` of C64 |
| C105 | derivatives of the frame placement along motions (C71, C75) with the rotation of the frame; witness: a frame on a turning joint at t = PI/2 |
| C106 | invariant of C91 (which entries the two levels have) and an invariant for the list of tasks; C99 (least cost) rewritten by contact and by name; completing the square for two tasks with equal rows |
| C107 | invariant: a task holds what it was told (C74); mean of the two laws; witness: the gains and weights of ex_4_conf.py |
| C108 | invariant over the calls: the reference held by the task and the contact is that of a separate relation on histories; induction over the iterations of the loop |
| C109 | invariant over the interleavings: the object held by the loop is a prefix of the present data, level by level; exact effect of a resize between the two calls |
| C110 | block elimination for positive definite matrices, forces of all contacts placed in one vector, invariant over soft histories |
| C111 | description of the formulation carried through the calls, induction on the periods, C110 for the existence of answers, meaning of the contact and bound constraints |
| C112 | updateTaskWeight as a renaming of the weights in the description of the formulation, induction on the calls, C106 for the period, flags of the loop computed from its text |
| C113 | induction on the calls with their observed results; sizes by an invariant; checkConstraint through C28 |
| C114 | induction on the periods with the invariant that gains and mask are as built; the bound by `bounded_track` (SampledTrack.v) on the law continued past the last period |
| C115 | induction on the periods; the reference in force is a relation on the list of events, shown to be what the loop carries; fading by the bound of C114 for a constant curve |
| C79 | the invariants of the tasks over all histories, `dim()` modelled apart from the constraint |
| C69, C70, C72 | frame kinematics of the robot wrapper as derivatives of the placement |

Status, theorem names and notes per property are in `MANIFEST.json`; findings in
section 5 below.

## 4. Trusted base

* Coq 8.16.1 kernel.
* `Print Assumptions` output of every property theorem (printed when the
  `Prop_*.v` files are built): either closed under the global context or a subset of
  these standard-library axioms: `ClassicalDedekindReals.sig_forall_dec`,
  `ClassicalDedekindReals.sig_not_dec`,
  `FunctionalExtensionality.functional_extensionality_dep`,
  `Classical_Prop.classic` (the last one for C23_exists, C55_optimum_exists, C89, C94, C95, C97_possible, C97_feet, C98, the cases of C99 and C100, C100_unplaced_refuted, C102_program, C102_case, C103 (except C103_starts), C106_answer, C110_soft, C110_case, C111_gripper_answers, C111_closed_refuted, C111_quadruped_answers, the cases of C111, C112_answer, C114_follows, C114_constant, C114_case, C115_settles, C115_case, and, through Flocq, C53_inverted,
  C53_refuted, C67_finite and the theorems of C80-C82).
  Coquelicot (`Hierarchy`: completeness of R in filter form) is used in
  `SolverExist.v`; it adds no axiom.
* The fidelity of the model to the source.

Not modelled: rounding of doubles except in C80-C82 (the other numeric theorems are over R), pinocchio's
algorithms, the numerical QP solvers, the Python bindings except what C83 and C84 are about, the exercises except what C90-C92, C102-C109, C112, C114 and C115 are about, the demos except what C111 is about, logging, profiling calls
inside the formulation, memory management.

## 5. Findings

Behaviour of the code that contradicts the natural reading of the API. Each is a
theorem named `..._refuted` in a `Prop_*.v` file.

Formulation (`inverse-dynamics-formulation-acc-force.cpp`)
* `removeTask` of a priority-0 force task does not decrement `nEq`/`nIn` (C01, C04).
* `removeTask` with the name of an internal constraint deletes it and returns false
  (C06).
* `updateRigidContactWeights` returns false although it changed a weight (C08).
* A priority level equal to the number of levels passes the size check
  (`priorityLevel > m_hqpData.size()`) and writes out of bounds (C09).
* After `setAssociatedContact` the columns of the previous contact keep their old
  values (C19).
* A second solution passed to the getters before the next computation is ignored,
  and a contact added after decoding reads outside the decoded vector (C14, C15).
* Transitions: a start force below the minimum makes computeProblemData throw (C16);
  only one finished transition is removed per computation; an immediate removal
  while a transition is pending makes the transition act on a re-added contact or
  fails an assertion (C17).
* `name(...)` of a task or contact that is present: the HQP entries keep the old name, so
  removal by the new name fails an assertion or, in release builds, leaves the entries behind
  (with `removeTask` returning true), removal by the old name deletes the entries and keeps the
  object (C76).

Solvers
* proxqp and osqp: `solve` calls `retrieveQPData` with its default argument false, so
  the Hessian is not regularised (C23).
* qpmad: lower bounds start at `numeric_limits<double>::min()`, the smallest positive
  double, so bounds force every variable to be positive (C24).
* qpmad: `m_lb`/`m_ub` are resized only when the number of variables changes while
  bounds are present; a problem with bounds after one without is undefined behaviour
  (C25).
* One-level problems are solved with the cost of the previous problem (C26).
* eiquadprog-fast/-rt (INFEASIBLE) and proxqp (SOLVED_CLOSEST_PRIMAL_FEASIBLE,
  NOT_RUN): the status of the previous call is reported (C27).
* After an answer other than optimal, lambda, activeSet and iterations keep the values of an earlier
  call (C85). proxqp stores `results.y` only (the multipliers of the equalities, by general
  knowledge of proxqp), its active set is always empty; osqp never writes activeSet and iterations, SolverHQuadProg and qpmad none of the three
  (iterations is an uninitialised integer); `HQP_status_string[HQP_STATUS_UNKNOWN]` reads index -1
  (C85).
* `getObjectiveValue` is the cost of the tasks minus a term of their desired values; for qpmad it is
  always infinity (C87).
* proxqp and osqp: `setMaximumIterations(0)` returns true and the library then runs with 0
  iterations, the getter shows the previous number, which comes back at the next change of the
  sizes (C77).
* proxqp and osqp: in debug builds every change of the sizes overwrites `setVerbose(false)` (C77).
* `getMaximumTime` and `getUseWarmStart` are stored and returned, no back-end reads them; eiquadprog
  and qpmad do not read the number of iterations either (stated from reading the source; C77 only
  proves the values stored).
* The copy constructor of `SolverOSQP` copies the sizes but not the matrices: a problem with the
  number of variables of the original is undefined behaviour (C78). The number of iterations goes
  back to 1000 (C78).
* `TaskJointPosVelAccBounds::dim()` ignores the mask; after a mask refused by an exception `dim()` of
  the masked joint tasks is that of the refused mask (C79).
* `ConstraintEquality::checkConstraint(x, 0)` is false for an exact solution (C28).

Contacts
* Normals are not normalised and short ones are accepted; below length 1e-5 both
  tangents may be zero, so the tangential force is not limited (C30).
* The lower bound -1e10 of the friction rows cuts the pyramid when 2 mu fMax > 1e10
  (C29).
* Two-frame contact: setters check nothing, fMin > fMax is accepted (C31);
  `getNormalForce` returns 0 (C29).
* `Contact6d::setContactPoints` does not refresh the force regularisation task (C32).
* Sizes: `Contact6d::setForceReference` and the two-frame `Kp`, `Kd`, `setForceReference` only
  assert them, the point contact throws (C31, C74).
* `ContactPoint::Kp` and `Kd` pass on a Vector6 whose last three entries are uninitialised; the
  mask keeps them out of the constraint (C74).
* Measured forces: `pinocchio::getFrameJacobian` is supposed to write the columns of the joints
  that move the frame and no others (general knowledge of pinocchio, not checked here); a
  version writing all columns is the case where all are listed (C75).

Joint limit tasks
* `TaskJointBounds`: ordered bounds may still give lower > upper (C35).
* `TaskJointPosVelAccBounds`: with a range narrower than ddqMax (2 dt)^2 the conflict
  resolution lets the joint leave its range (C38); viability limits without position
  limits do not keep the joint in its range (C38).
* In doubles the velocity limits hold only up to rounding, and a NaN velocity makes both bounds
  NaN, so the acceleration limits are lost as well (C80).
* The constructor keeps 2 dt and constants derived from it, `setTimeStep` stores dt and
  leaves the constants (C39).
* Masks with zeros give bounds and matrix of different sizes (C56).
* Position and viability limits that are switched off keep their last values (C57).
* `isStateViable`: the last test uses `dqMinViab + eps` and overwrites earlier violations, so
  a joint at rest below its range is not reported (C73).

Posture and actuation tasks
* `setMask`/`mask` replace the mask and the active axes before checking the entries; after
  the exception the next `compute` writes out of bounds (C58).
* `TaskActuationBounds`: constructor and `mask` leave bounds 0, i.e. zero torque, until
  `setBounds` (C40).
* `TaskJointPosture::position()` is never assigned (C59).

Frame, centre-of-mass and angular-momentum tasks
* `TaskComEquality::getAcceleration` and `TaskAMEquality::getdMomentum` subtract the drift
  instead of adding it (C42).
* `TaskSE3Equality`/`TaskTwoFramesEquality::setMask` check neither size nor entries (C63).
* `TaskSE3Equality::setReference` stores a sample it then rejects (C63).
* `TaskSE3Equality`: `velocity()` is in the frame, `velocity_ref()` in world axes (C62);
  `useLocalFrame` matters as soon as gains differ between axes (C61).
* `TaskAMEquality` never uses Kd (C60).

Force and capture point tasks
* `TaskCopEquality` multiplies local force components with a normal in world axes: wrong
  centre of pressure for tilted contacts (C64); a reference out of the contact plane
  forbids any normal load (C64).  Not modelled: the list of contacts is an uninitialised
  pointer before `setContactList`, and the motion task is cast to `TaskSE3Equality`
  whatever its type.
* `TaskCapturePointInequality::getAcceleration` never has matching sizes; margins are not
  checked (C65).  With the centre of mass at or below height 0 the frequency is the square
  root of a negative number or infinite; excluded by hypothesis in C44.
* `TaskContactForceEquality`: compute advances the integral at every call (C45); gains are
  empty until set, and a 3D contact gives three rows against six entries (C66).

Utilities and robot wrapper
* `is_nan` is true iff no entry is NaN (C53).
* `Statistics`: a zero sample is dropped from the minimum, only negative samples give
  maximum 0 (C49).
* `Stopwatch::pause` uses clock() in every mode, does not divide by CLOCKS_PER_SEC and keeps
  the start, so the next stop counts the interval again; so does a second stop (C50).
* `readMatrixFromFile` does not check its reads (C68); the storage order is not stored (C47).
  `matrix.data()` and `resize` are called on MatrixBase; the templates are instantiated
  nowhere in the repository and Eigen is not at hand, so both readings of resize are modelled.
* `pseudoInverse` with a tolerance <= 0 returns zero (C48); the null space of a thin SVD of a
  wide matrix fails an Eigen assertion (C71).
* `TrajectoryEuclidianConstant::setReference` with the trajectory's own value erases it;
  `TrajectorySE3Constant(name)` starts with a zero rotation (C51).
* `RobotWrapper::frame...WorldOriented` use an SE3 of which only the rotation is set (C69,
  C70).  That pinocchio's default constructor leaves the translation uninitialised is an
  assumption from general knowledge of pinocchio: its sources and documentation were not
  available here and it was not checked.
* Rotor inertias may be negative (C52).  `RobotWrapper(model)` takes every model as floating.

Python interface
* The object returned by `computeProblemData` copies the weights and shares the constraints: later
  computations change it, later weights do not, and after the removal of a contact it mixes
  constraints of different numbers of columns (C83).
* `addRigidContact` declares the priority level as `bool`; every level above 0 becomes 1 (C83).
  That Boost.Python converts integers this way is general knowledge, not checked here.
* `TaskJointPosVelAccBounds.compute` and `getConstraint` return a `ConstraintBound` without the
  matrix of the task: wrong number of columns on a floating base, masks ignored (C84).
* Read in the bindings but not modelled: `getMask` of the SE3 and two-frame tasks and
  `isStateViable` return nothing; `getMotionTask` of a contact returns a copy.

Exercises
* `ex_4_walking.py` removes the left foot at the start whatever `contact_phase[0]` says;
  for a plan that starts on the left foot the robot stands on the other foot, then the
  right foot is in contact twice, and the removal that follows fails an assertion in
  debug builds (C91).
* `TsidBiped.add_contact_RF` adds the contact again when it is active already (C91).
* `TsidBiped.remove_contact_RF` with a transition time lowers the flag although the
  contact stays until the transition ends (C91).
* The plotted centre of pressure has the wrong sign and can be drawn outside of the foot
  (C92).

Public calls with internal use
* `removeFromHqpData` is public and offered in Python. Called by a user it leaves the
  counters as they were, accepts "base-dynamics", and the constraint of the task is not
  resized any more when a contact is added: the next `computeProblemData` writes out of
  range for a force task of the new contact. `removeTask` and `removeRigidContact` fail an
  assertion afterwards in debug builds (C93).

Contacts
* The gains of a contact are zero until set: a contact placed at rest stays, one that moves when it
  is added keeps its velocity (C95).

Capture point task
* The constraint supposes that the height does not change during the period: when the centre of
  mass rises the capture point can leave the limits (C96).

Planned and real motion
* A hard contact whose frame is held by the ground away from its reference, with a gain on that
  error, makes the plan impossible: the robot cannot have the planned accelerations, and nothing
  reports it (C97_off_placement).  The reference has to be set to the placement of the frame at the
  time the contact is added.

Weights and order
* `updateTaskWeight` (idf:150-163) does not check the weight, `addRigidContact` neither, while the
  add calls and `updateRigidContactWeights` do: a negative weight makes the cost non-convex (C99).
* A force task without associated contact, or with one that is not there, acts on all the force
  variables in the order in which the contacts were added: removing and adding a contact again can
  silently change what the task controls (C100_unplaced_refuted).

Text of problems
* Names are written as they are: a constraint whose name has a line end can make the text of a problem
  with one constraint equal to that of another problem with two (C101_newline_refuted).

Manipulator program
* `integrate_dv` (tsid_manipulator.py:113) adds to the column it is given, so the program overwrites
  v[:, i] with the velocity of the next period: the plotted joint velocities are one period ahead (C103_plot).
* The loop stops on `sol.status != 0`; a solver code that does not change the status hides problems
  without a solution, and the torques exceed the limits (C103_hidden, C103_limits_refuted; see C27).

Walking exercises
* test_cop_task.py draws a total centre of pressure with the sign error of C92 beside the reference of the
  CoP task; with the task satisfied it is 2*(mean of the foot origins weighted with the loads) - reference
  (C104_reference, C104_reference_refuted). The height of the sole under the frame (lz) is ignored as well
  (C104_foot, C104_total).
* The recorded foot velocities and accelerations are in foot axes, while positions and references are in
  world axes (C105_report, C105_refuted).
* Before the walk (i < 0) the foot tasks of TsidBiped have no reference and hold the feet at the origin of
  the world against the soft contacts: a standing foot is asked for the acceleration
  -(w_foot kp_foot / (w_contact + w_foot)) R^T p (C107_pulled, C107_stays_refuted). Setting the references in
  the constructor, where H_lf_ref and H_rf_ref are already known, removes it.
* In `ex_4_walking.py` the reference that `remove_contact_LF/RF` gives to the foot task is replaced by
  `set_LF/RF_3d_ref` before it is used: in flight a foot is turned to the orientation it had in the
  constructor, whatever it had on the ground (C108_walk_task, C108_orientation_refuted). After the last
  column of the plan the foot tasks keep its velocity and acceleration.
* `add_contact_LF/RF` read `formulation.data()`, the state of the previous period: in its first period the
  contact pulls the foot back by what it moved in one period (C108_landed, C108_holds_refuted).
* `ex_3_biped_balance_with_gui.py` has no lock between the window and the simulation thread. A foot added
  between `computeProblemData` and `solve` makes the solver see zeros only, and the robot gets zero
  acceleration for that period (C109_coast). A foot removed there leaves the loop with an `HQPData` whose
  constraints have different numbers of columns (C109_removal_refuted). Modelled: one binding call at a time;
  that the calls are not interleaved internally is the effect of Python's global lock, general knowledge, not
  read from sources here.
* A contact added at level 0 can make the problem infeasible even though the robot, the contact forces and the
  torque limits are in order (C110_hard_refuted); with every contact and task at level 1 it cannot (C110_soft).
* The gripper demo closes its chain with a weight, not as a hard constraint: the chain may open although the
  solver reports success (C111_closed_refuted).
* `test_cop_task.py` puts the missing foot back at i = N by looking at `contact_phase[N-1]`, but follows the
  phase changes only up to N-2. If the last two entries differ, the foot on the ground is added a second time
  (C112_end_refuted). The planner that writes the entries is not part of the repository.

Constraints
* `setMatrix` of a `ConstraintBound` (inherited from the base class, not in the Python bindings) returns true and
  `matrix()` shows the new matrix, but nothing reads it (C113_bound_matrix_refuted).
* `setMatrix` checks the size, `setVector`, `setLowerBound` and `setUpperBound` do not (C113_length_refuted).

Balance exercises
* The plots of com_acc and com_acc_des in ex_1.py and ex_2.py differ by twice the drift although the task is met
  (C114_plot_refuted).
