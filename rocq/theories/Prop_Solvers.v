(** Properties C21-C28 and C55: the QP solvers over every history of one solver
    object, checkConstraint, and the formulation followed by a solver.  Only
    statements; the proofs are in SolverMain.v, SolverExist.v, Check.v, SolverRefute.v
    and FormSolver.v.  The external numerical solver is arbitrary: [ans] and [x] are
    its return code and vector. *)
From Coq Require Import String List Arith Bool ZArith QArith Reals Lia Lra.
From Verif Require Import Scalar Outcome Linalg Constraint Formulation FormSpec FormSafe2 FormDataSpec FormPhysSpec FormMain FormWitness.
From Verif Require Import Solvers SolverSpec SolverSizes SolverSem SolverMain SolverExist SolverRefute Check FormSolver.
Import ListNotations.
Open Scope string_scope.
Open Scope list_scope.
Open Scope nat_scope.

(** ** C21 the encoding of the hard constraints is exact *)
Theorem C21_one_sided_encoding : forall b dbg jk (s : sst Rnum) cl0 r ans x0 s' res, 
  match b with Eiq | Fast | Rt _ _ _ => True | _ => False end ->
  solver_state b dbg s -> fits b (q_n s') (cl0 :: r) ->
  solve b dbg jk s (cl0 :: r) ans x0 = Ret s' res -> forall x,
  (forall k, k < mrows (q_CE s') -> (qrow (q_CE s') x k + vget (q_ce0 s') k = 0)%R) /\
  (forall k, k < mrows (q_CI s') -> (0 <= qrow (q_CI s') x k + vget (q_cil s') k)%R)
  <-> hard_ok cl0 x.
Proof. exact one_sided. Qed.
Print Assumptions C21_one_sided_encoding.
Example C21_case : forall dbg jk (s : sst Rnum) ans x0, solver_state (Rt 2 1 1) dbg s ->
  exists s' r, solve (Rt 2 1 1) dbg jk s demo ans x0 = Ret s' r /\ fits (Rt 2 1 1) (q_n s') (@demo Rnum) /\
    hard_ok (@hard Rnum) (pt 2 (-1)) /\ ~ hard_ok (@hard Rnum) (pt 3 (-2)).
Proof.
  intros dbg jk s ans x0 S. destruct (demo_solved (K:=Rnum) (Rt 2 1 1) dbg jk s ans x0) as (s' & r & E & N); [cbn; auto|exact S|].
  exists s', r. split; [exact E|]. split; [rewrite N; cbn; auto|]. split; [apply hard_point; lra|].
  intros H. apply hard_point in H. lra.
Qed.

(** ** C22 the cost is weighted least squares *)
Theorem C22_cost : forall b dbg jk (s : sst Rnum) cl0 cl1 ans x0 s' res, solver_state b dbg s ->
  solve b dbg jk s [cl0; cl1] ans x0 = Ret s' res ->
  exists k : R, forall x, qp_cost s' x = (least_squares (solve_reg b) (q_n s') cl1 x + k)%R.
Proof. exact solve_cost. Qed.
Print Assumptions C22_cost.
Theorem C22_minimisers : forall b dbg jk (s : sst Rnum) cl0 cl1 ans x0 s' res, solver_state b dbg s ->
  solve b dbg jk s [cl0; cl1] ans x0 = Ret s' res -> forall (F : (nat -> R) -> Prop) x,
  (forall z, F z -> (qp_cost s' x <= qp_cost s' z)%R) <->
  (forall z, F z -> (least_squares (solve_reg b) (q_n s') cl1 x <= least_squares (solve_reg b) (q_n s') cl1 z)%R).
Proof. exact solve_minimisers. Qed.
Print Assumptions C22_minimisers.
Example C22_case : forall b dbg jk (s : sst Rnum) ans x0, fitting 1 b -> solver_state b dbg s ->
  (exists s' r, solve b dbg jk s demo ans x0 = Ret s' r /\ q_n s' = 2) /\
  forall u v, least_squares (solve_reg b) 2 (@soft Rnum) (pt u v) = ((u - 3) * (u - 3) + / 2 * solve_reg b * (u * u + v * v))%R.
Proof. intros b dbg jk s ans x0 F S. split; [apply demo_solved; assumption|intros u v; apply soft_cost]. Qed.

(** ** C23 strict convexity, existence and uniqueness *)
Theorem C23_convex : forall b dbg jk (s : sst Rnum) cl0 cl1 ans x0 s' res, solver_state b dbg s ->
  solve b dbg jk s [cl0; cl1] ans x0 = Ret s' res -> (forall w c, In (w, c) cl1 -> (0 <= w)%R) ->
  (forall i j, mget (q_H s') i j = mget (q_H s') j i) /\
  (forall x, (solve_reg b * sqnorm (q_n s') x <= @nsum Rnum (mrows (q_H s')) (fun i => x i * qrow (q_H s') x i))%R).
Proof. exact solve_convex. Qed.
Print Assumptions C23_convex.
Theorem C23_unique : forall b dbg jk (s : sst Rnum) cl0 cl1 ans x0 s' res, regularised b -> solver_state b dbg s ->
  fits b (q_n s') [cl0; cl1] ->
  solve b dbg jk s [cl0; cl1] ans x0 = Ret s' res -> (forall w c, In (w, c) cl1 -> (0 <= w)%R) ->
  forall x y, qp_feasible b s' x -> qp_feasible b s' y ->
  (forall z, qp_feasible b s' z -> (qp_cost s' x <= qp_cost s' z)%R) ->
  (forall z, qp_feasible b s' z -> (qp_cost s' y <= qp_cost s' z)%R) ->
  forall i, i < q_n s' -> x i = y i.
Proof. exact solve_unique. Qed.
Print Assumptions C23_unique.
Theorem C23_exists : forall b dbg jk (s : sst Rnum) cl0 cl1 ans x0 s' res, regularised b -> solver_state b dbg s ->
  fits b (q_n s') [cl0; cl1] ->
  solve b dbg jk s [cl0; cl1] ans x0 = Ret s' res -> (forall w c, In (w, c) cl1 -> (0 <= w)%R) ->
  (exists z, qp_feasible b s' z) ->
  exists x, qp_feasible b s' x /\ forall z, qp_feasible b s' z -> (qp_cost s' x <= qp_cost s' z)%R.
Proof. exact solve_exists. Qed.
Print Assumptions C23_exists.
(** proxqp and osqp: solve leaves the Hessian unregularised. *)
Theorem C23_unregularised_refuted : forall b dbg jk (s : sst Rnum) ans x0, ~ regularised b -> solver_state b dbg s ->
  exists s' r x y, solve b dbg jk s demo_loose ans x0 = Ret s' r /\ pwf 2 demo_loose /\ q_n s' = 2 /\
    (forall w c, In (w, c) (@soft Rnum) -> (0 <= (w : R))%R) /\
    qp_feasible b s' x /\ qp_feasible b s' y /\
    (forall z, (qp_cost s' x <= qp_cost s' z)%R) /\ (forall z, (qp_cost s' y <= qp_cost s' z)%R) /\ x 1 <> y 1.
Proof. exact unique_refuted. Qed.
Print Assumptions C23_unregularised_refuted.
Example C23_case : forall b dbg jk (s : sst Rnum) ans x0, regularised b -> fitting 1 b -> solver_state b dbg s ->
  exists s' r, solve b dbg jk s demo ans x0 = Ret s' r /\ fits b (q_n s') (@demo Rnum) /\
    (forall w c, In (w, c) (@soft Rnum) -> (0 <= (w : R))%R) /\ (exists z, qp_feasible b s' z).
Proof.
  intros b dbg jk s ans x0 _ F S. destruct (demo_solved (K:=Rnum) b dbg jk s ans x0 F S) as (s' & r & E & N).
  assert (FF : fits b (q_n s') (@demo Rnum)) by (rewrite N; apply demo_fits; exact F).
  exists s', r. split; [exact E|]. split; [exact FF|]. split.
  - intros w c [H|[]]. injection H as <- _. cbn. rewrite Q2R_int. lra.
  - exists (pt 2 (-1)). apply (solve_feasible _ _ _ _ _ _ _ _ _ _ S FF E). split; [apply hard_point; lra|].
    intros _ HB. destruct (hard_no_bound HB).
Qed.

(** ** C24 all the back-ends have the same feasible set *)
Theorem C24_feasible_set : forall b dbg jk (s : sst Rnum) cl0 r ans x0 s' res, solver_state b dbg s ->
  fits b (q_n s') (cl0 :: r) -> (b = Qpmad -> ~ has_bound cl0) ->
  solve b dbg jk s (cl0 :: r) ans x0 = Ret s' res -> forall x, qp_feasible b s' x <-> hard_ok cl0 x.
Proof. exact feasible_set. Qed.
Print Assumptions C24_feasible_set.
(** qpmad with bounds: the variables are also forced into [DBL_MIN, DBL_MAX], that is
    [smallest] = 2^-1022 and [largest] = (2^53 - 1) 2^971. *)
Theorem C24_qpmad_bounds : forall dbg jk (s : sst Rnum) cl0 r ans x0 s' res, solver_state Qpmad dbg s -> has_bound cl0 ->
  solve Qpmad dbg jk s (cl0 :: r) ans x0 = Ret s' res -> forall x,
  qp_feasible Qpmad s' x <-> hard_ok cl0 x /\ forall k, k < q_n s' -> (smallest <= x k <= largest)%R.
Proof. exact qpmad_bounds. Qed.
Print Assumptions C24_qpmad_bounds.
Theorem C24_qpmad_bounds_refuted : forall dbg jk1 jk2 jk hb st ans1 ans2 x1 x2,
  exists (s1 : sst Rnum) r1 s2 r2 x,
    solve Qpmad dbg jk1 (solver_new Qpmad jk hb st) demo_box ans1 x1 = Ret s1 r1 /\
    solve Eiq dbg jk2 (solver_new Eiq jk hb st) demo_box ans2 x2 = Ret s2 r2 /\
    hard_ok hard_box x /\ qp_feasible Eiq s2 x /\ ~ qp_feasible Qpmad s1 x.
Proof. exact same_problem_refuted. Qed.
Print Assumptions C24_qpmad_bounds_refuted.
Example C24_case : forall b dbg jk (s : sst Rnum) ans x0, fitting 1 b -> solver_state b dbg s ->
  exists s' r, solve b dbg jk s demo ans x0 = Ret s' r /\ fits b (q_n s') (@demo Rnum) /\ ~ has_bound (@hard Rnum).
Proof.
  intros b dbg jk s ans x0 F S. destruct (demo_solved (K:=Rnum) b dbg jk s ans x0 F S) as (s' & r & E & N).
  exists s', r. split; [exact E|]. split; [rewrite N; apply demo_fits; exact F|apply hard_no_bound].
Qed.

(** ** C25 unsupported problems are rejected *)
Theorem C25_too_many_levels : forall (K : num) b dbg jk (s : sst K) P ans x, 2 < List.length P ->
  solve b dbg jk s P ans x = Exc s.
Proof. exact (@reject_levels). Qed.
Print Assumptions C25_too_many_levels.
Theorem C25_inequality_in_cost : forall (K : num) b dbg jk (s : sst K) n (cl0 cl1 : level K) ans x,
  usable b dbg n [cl0; cl1] s -> cl0 <> [] -> lwf n cl0 -> lwf n cl1 ->
  (exists w c, In (w, c) cl1 /\ c_kind c <> CEq) ->
  exists s', solve b dbg jk s [cl0; cl1] ans x = Exc s'.
Proof. exact (@reject_cost). Qed.
Print Assumptions C25_inequality_in_cost.
Theorem C25_accepted : forall (K : num) b dbg jk (s : sst K) n P ans x, usable b dbg n P s -> pwf n P ->
  exists s' r, solve b dbg jk s P ans x = Ret s' r.
Proof. exact (@accept). Qed.
Print Assumptions C25_accepted.
(** qpmad: the same problem is accepted by a new solver and is undefined behaviour
    after a problem without bounds. *)
Theorem C25_qpmad_refuted : forall dbg, exists s, solver_state Qpmad dbg s /\ pwf 2 (@demo_box Qnum) /\
  (exists s' r, solve Qpmad dbg zj (solver_new Qpmad zj false St_unknown) demo_box Q_ok (vzero 2) = Ret s' r) /\
  solve Qpmad dbg zj s demo_box Q_ok (vzero 2) = Undef.
Proof. exact accept_refuted. Qed.
Print Assumptions C25_qpmad_refuted.
Example C25_case : forall (K : num) b dbg jk hb st, fitting 1 b ->
  usable b dbg 2 (@demo K) (solver_new b jk hb st) /\ pwf 2 (@demo K) /\
  usable b dbg 2 (@demo_bad K) (solver_new b jk hb st) /\ lwf 2 (nth 1 (@demo_bad K) []) /\
  exists w c, In (w, c) (nth 1 (@demo_bad K) []) /\ c_kind c <> CEq.
Proof.
  intros K b dbg jk hb st F. split; [apply demo_usable; [exact F|apply new_state]|]. split; [apply demo_pwf|]. split.
  - split; [apply new_state|]. split; [apply demo_bad_fits; exact F|].
    intros _ (c0 & r & E & HB). injection E as <- _. destruct (hard_no_bound HB).
  - split; [apply bad_lwf|]. exists (SolverRefute.q 1), c_diff. split; [cbn; auto|discriminate].
Qed.

(** ** C26 a solve does not depend on earlier solves *)
Theorem C26_independent : forall (K : num) b dbg1 dbg2 jk1 jk2 (s1 s2 : sst K) n P ans1 ans2 x1 x2 s1' s2' r1 r2,
  solver_state b dbg1 s1 -> solver_state b dbg2 s2 -> pwf n P -> fits b n P ->
  solve b dbg1 jk1 s1 P ans1 x1 = Ret s1' r1 -> solve b dbg2 jk2 s2 P ans2 x2 = Ret s2' r2 -> same_qp b s1' s2'.
Proof. exact (@solve_independent). Qed.
Print Assumptions C26_independent.
Theorem C26_one_level_refuted : forall dbg, exists s1 s2 s1' s2' r1 r2,
  solver_state Eiq dbg s1 /\ solver_state Eiq dbg s2 /\
  solve Eiq dbg zj s1 one_level false (vzero 2) = Ret s1' r1 /\ solve Eiq dbg zj s2 one_level false (vzero 2) = Ret s2' r2 /\
  mget (q_H s1') 0 0 = 0%Q /\ mget (q_H s2') 0 0 = (200000001 # 100000000)%Q.
Proof. exact independent_refuted. Qed.
Print Assumptions C26_one_level_refuted.
Example C26_case : forall (K : num) b dbg jk hb st ans1 ans2 ans3 (x1 x2 x3 : vec K), fitting 1 b ->
  exists s s1' r1 s2' r2, 
    solve b dbg jk (solver_new b jk hb st) demo ans1 x1 = Ret s1' r1 /\ solver_state b dbg s /\
    solve b dbg jk s demo ans2 x2 = Ret s2' r2 /\ s = fst (match solve b dbg jk (solver_new b jk hb st) demo ans3 x3 with Ret s' r => (s', r) | _ => (s, (St_error, x1)) end).
Proof.
  intros K b dbg jk hb st ans1 ans2 ans3 x1 x2 x3 F.
  destruct (demo_solved (K:=K) b dbg jk (solver_new b jk hb st) ans1 x1 F (new_state _ _ _ _ _)) as (s1 & r1 & E1 & _).
  destruct (demo_solved (K:=K) b dbg jk (solver_new b jk hb st) ans3 x3 F (new_state _ _ _ _ _)) as (s & r & E & _).
  assert (S : solver_state b dbg s).
  { exists jk, hb, st. eapply (reach_step _ _ _ _ (SSolve b demo jk ans3 x3)); [constructor|exact I|]. cbn [sstep]. rewrite E. reflexivity. }
  destruct (demo_solved (K:=K) b dbg jk s ans2 x2 F S) as (s2 & r2 & E2 & _).
  exists s, s1, r1, s2, r2. rewrite E. auto.
Qed.

(** ** C27 the status reported is the status of this solve *)
Theorem C27_status : forall (K : num) b dbg jk (s : sst K) P ans x s' t y, solve b dbg jk s P ans x = Ret s' (t, y) ->
  (handled b ans -> (t = St_optimal <-> optimum b ans) /\ (t = St_infeasible <-> no_solution b ans) /\
    (t = St_max_iter <-> gave_up b ans)) /\
  (~ handled b ans -> t = q_status s) /\ (optimum b ans -> y = x) /\ q_status s' = t /\ q_x s' = y.
Proof. exact (@solve_status). Qed.
Print Assumptions C27_status.
Theorem C27_same_status : forall (K : num) b dbg1 dbg2 jk1 jk2 (s1 s2 : sst K) P1 P2 ans x1 x2 s1' s2' t1 t2 y1 y2, handled b ans ->
  solve b dbg1 jk1 s1 P1 ans x1 = Ret s1' (t1, y1) -> solve b dbg2 jk2 s2 P2 ans x2 = Ret s2' (t2, y2) -> t1 = t2.
Proof. exact (@solve_same_status). Qed.
Print Assumptions C27_same_status.
Theorem C27_stale_refuted : forall (K : num) b dbg jk hb st good bad (x y : vec K),
  unseen b = Some (good, bad) -> fitting 1 b ->
  exists s r s' z, solve b dbg jk (solver_new b jk hb st) demo good x = Ret s r /\
    solve b dbg jk s demo bad y = Ret s' (St_optimal, z) /\ ~ optimum b bad /\ optimum b good.
Proof. exact (@status_refuted). Qed.
Print Assumptions C27_stale_refuted.
Example C27_case : forall (K : num) dbg jk hb st (x : vec K),
  exists s' r, solve Osqp dbg jk (solver_new Osqp jk hb st) demo O_solved_inaccurate x = Ret s' r /\ handled Osqp O_solved_inaccurate /\
    ~ optimum Osqp O_solved_inaccurate.
Proof.
  intros K dbg jk hb st x.
  destruct (demo_solved (K:=K) Osqp dbg jk (solver_new Osqp jk hb st) O_solved_inaccurate x I (new_state _ _ _ _ _)) as (s1 & r1 & E1 & _).
  exists s1, r1. split; [exact E1|]. split; [exact I|]. discriminate.
Qed.

(** ** C28 checkConstraint *)
Theorem C28_check : forall n c (x : vec Rnum) (tol : R), cwf n c -> vlen x = n ->
  exists r, check sqrt c x tol = Some r /\ (r = true <-> within c (vget x) tol).
Proof. exact check_within. Qed.
Print Assumptions C28_check.
Theorem C28_exact_solution : forall n c (x : vec Rnum) (tol : R), cwf n c -> vlen x = n -> (0 < tol)%R -> sat c (vget x) ->
  check sqrt c x tol = Some true.
Proof. exact check_exact. Qed.
Print Assumptions C28_exact_solution.
Theorem C28_monotone : forall n c (x : vec Rnum) (t1 t2 : R), cwf n c -> vlen x = n -> (t1 <= t2)%R ->
  check sqrt c x t1 = Some true -> check sqrt c x t2 = Some true.
Proof. exact check_mono. Qed.
Print Assumptions C28_monotone.
Theorem C28_all_tolerances : forall n c (x : vec Rnum), cwf n c -> vlen x = n ->
  (forall tol : R, (0 < tol)%R -> check sqrt c x tol = Some true) <-> sat c (vget x).
Proof. exact check_all. Qed.
Print Assumptions C28_all_tolerances.
(** With tolerance 0 no equality is accepted. *)
Theorem C28_equality_zero_refuted : forall n c (x : vec Rnum) (tol : R), cwf n c -> vlen x = n -> c_kind c = CEq -> (tol <= 0)%R ->
  check sqrt c x tol = Some false.
Proof. exact check_eq_zero. Qed.
Print Assumptions C28_equality_zero_refuted.
Example C28_case : cwf 2 (@c_sum Rnum) /\ sat (@c_sum Rnum) (pt 2 (-1)) /\ ~ sat (@c_sum Rnum) (pt 2 2) /\
  cwf 2 (@c_diff Rnum) /\ sat (@c_diff Rnum) (pt 2 (-1)).
Proof.
  assert (H : hard_ok (@hard Rnum) (pt 2 (-1))) by (apply hard_point; lra).
  split; [cbv; auto|]. split; [apply (H (SolverRefute.q 1)); left; reflexivity|]. split.
  - intros C. specialize (C 0 Nat.lt_0_1). revert C. cbn. unfold pt. cbn. rewrite ?Q2R_int. lra.
  - split; [cbv; auto|]. apply (H (SolverRefute.q 1)). right; left; reflexivity.
Qed.

(** ** C55 the formulation with a solver *)
Theorem C55_problem_shape : forall (K : num) dbg nv na (M0 : mat K) H0 s, robot_ok nv M0 H0 ->
  reach (step dbg) (good dbg) (init nv na M0 H0) s ->
  exists cl0 cl1, problem_of s [cl0; cl1] /\ cl0 <> [] /\ lwf (nVar s) cl0 /\ lwf (nVar s) cl1 /\
    ~ has_bound cl0 /\ ~ has_bound cl1.
Proof. exact (@problem_shape). Qed.
Print Assumptions C55_problem_shape.
Theorem C55_accepted : forall (K : num) dbg nv na (M0 : mat K) H0 s P b dbg' jk (q : sst K) ans x,
  robot_ok nv M0 H0 -> reach (step dbg) (good dbg) (init nv na M0 H0) s -> problem_of s P ->
  solver_state b dbg' q -> fits b (nVar s) P ->
  (forall w c, In (w, c) (nth 1 P []) -> c_kind c = CEq) ->
  exists q' r, solve b dbg' jk q P ans x = Ret q' r.
Proof. exact (@formulation_accepted). Qed.
Print Assumptions C55_accepted.
Theorem C55_rejected : forall (K : num) dbg nv na (M0 : mat K) H0 s P b dbg' jk (q : sst K) ans x,
  robot_ok nv M0 H0 -> reach (step dbg) (good dbg) (init nv na M0 H0) s -> problem_of s P ->
  solver_state b dbg' q -> fits b (nVar s) P ->
  (exists w c, In (w, c) (nth 1 P []) /\ c_kind c <> CEq) ->
  exists q', solve b dbg' jk q P ans x = Exc q'.
Proof. exact (@formulation_rejected). Qed.
Print Assumptions C55_rejected.
Theorem C55_optimum_physical : forall dbg nv na (M0 : mat Rnum) H0 asc s t e s' cl0 cl1 b dbg' jk (q : sst Rnum) ans x q' y,
  robot_ok nv M0 H0 -> reach (step dbg) (assoc_good dbg asc) (init nv na M0 H0) s ->
  assoc_good dbg asc s (OCompute t e) -> step dbg s (OCompute t e) = Ret s' OutUnit ->
  problem_of s' [cl0; cl1] -> solver_state b dbg' q -> fits b (nVar s') [cl0; cl1] ->
  handled b ans -> solve b dbg' jk q [cl0; cl1] ans x = Ret q' (St_optimal, y) -> exact_answer b q' ans x ->
  physical s' e (vget y) /\
  (forall z, physical s' e z ->
     (least_squares (solve_reg b) (nVar s') cl1 (vget y) <= least_squares (solve_reg b) (nVar s') cl1 z)%R).
Proof. exact solve_physical. Qed.
Print Assumptions C55_optimum_physical.
Theorem C55_optimum_exists : forall dbg nv na (M0 : mat Rnum) H0 asc s t e s' cl0 cl1 b dbg' jk (q : sst Rnum) ans,
  robot_ok nv M0 H0 -> reach (step dbg) (assoc_good dbg asc) (init nv na M0 H0) s ->
  assoc_good dbg asc s (OCompute t e) -> step dbg s (OCompute t e) = Ret s' OutUnit ->
  problem_of s' [cl0; cl1] -> solver_state b dbg' q -> fits b (nVar s') [cl0; cl1] ->
  (forall w c, In (w, c) cl1 -> c_kind c = CEq /\ (0 <= (w : R))%R) -> (exists z, physical s' e z) ->
  regularised b -> handled b ans -> optimum b ans ->
  exists x q', vlen x = nVar s' /\ solve b dbg' jk q [cl0; cl1] ans x = Ret q' (St_optimal, x) /\ exact_answer b q' ans x.
Proof. exact solution_exists. Qed.
Print Assumptions C55_optimum_exists.
Example C55_case : forall dbg, exists s s' cl0 cl1, reach (step dbg) (assoc_good dbg asc) (@s0 Rnum) s /\
  assoc_good dbg asc s (OCompute t0 one_env) /\ step dbg s (OCompute t0 one_env) = Ret s' OutUnit /\
  problem_of s' [cl0; cl1] /\ (forall w c, In (w, c) cl1 -> c_kind c = CEq /\ (0 <= (w : R))%R) /\
  (exists z, physical s' one_env z) /\ fits Fast (nVar s') [cl0; cl1] /\ regularised Fast /\ optimum Fast F_optimal.
Proof.
  intros dbg. destruct (plan_scene (K:=Rnum) dbg R_checks) as (A & B & C).
  destruct (plan_problem dbg) as (cl0 & cl1 & D & E). do 2 eexists. exists cl0, cl1.
  split; [exact A|]. split; [exact B|]. split; [exact C|]. split; [exact D|]. split; [exact E|].
  split; [exists stand; apply plan_physical|]. split; [exact I|]. split; [split; discriminate|reflexivity].
Qed.
