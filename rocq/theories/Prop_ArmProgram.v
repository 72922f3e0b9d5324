(** C103: the manipulator program takes the best admissible acceleration at every turn. *)
From Coq Require Import String List Arith Bool Reals.
From Verif Require Import Scalar Outcome Linalg FrameTasks ExactSolver ArmProgram ArmCase.
From Verif Require Solvers.
Import ListNotations.
Open Scope nat_scope.

(** The constructor makes its calls without an exception or undefined behaviour, and the loop
    starts at q0 at rest. *)
Theorem C103_starts dif intg log3 fk dbg nv neu mass nle (M0 : mat Rnum) H0 ext jn jx js jf jst q0 wp we wt wj kp kpe dt mask loc taumax vmax ref :
  robot_fine dif intg log3 nv neu mass nle M0 H0 -> conf_fine nv neu q0 wp we wt wj dt mask taumax vmax ref ->
  exists st, after_turns dif intg log3 fk dbg nv neu mass nle M0 H0 ext jn jx js jf jst q0 wp we wt wj kp kpe dt mask loc taumax vmax ref 0 = Some st /\ a_time st = 0%R /\ a_q st = q0 /\ a_v st = vzero nv.
Proof. exact (fun HR HC => arm_starts dif intg log3 fk dbg nv neu mass nle M0 H0 ext jn jx js jf jst q0 wp we wt wj kp kpe dt mask loc taumax vmax ref HR HC). Qed.
Print Assumptions C103_starts.

(** Each turn applies the admissible acceleration with the least cost, commands the torque it needs
    and integrates it. *)
Theorem C103_turn dif intg log3 fk dbg nv neu mass nle (M0 : mat Rnum) H0 ext jn jx js jf jst q0 wp we wt wj kp kpe dt mask loc taumax vmax ref :
  robot_fine dif intg log3 nv neu mass nle M0 H0 -> conf_fine nv neu q0 wp we wt wj dt mask taumax vmax ref -> exact_solver nv ext ->
  forall n st st', after_turns dif intg log3 fk dbg nv neu mass nle M0 H0 ext jn jx js jf jst q0 wp we wt wj kp kpe dt mask loc taumax vmax ref n = Some st -> after_turns dif intg log3 fk dbg nv neu mass nle M0 H0 ext jn jx js jf jst q0 wp we wt wj kp kpe dt mask loc taumax vmax ref (S n) = Some st' ->
  a_time st' = (INR (S n) * dt)%R /\ chosen dif log3 fk nv mass nle q0 wp we kp kpe dt mask loc taumax vmax ref (INR n * dt) (a_q st) (a_v st) (vget (a_dv st')) /\
  vlen (a_tau st') = nv /\ (forall i, i < nv -> vget (a_tau st') i = torque nv mass nle (a_q st) (a_v st) (vget (a_dv st')) i) /\
  a_q st' = intg (a_q st) (@mkVec Rnum nv (fun i => dt * (vget (a_v st) i + / 2 * dt * vget (a_dv st') i))%R) /\ a_v st' = @mkVec Rnum nv (fun i => vget (a_v st) i + dt * vget (a_dv st') i)%R.
Proof. exact (fun HR HC => arm_turn dif intg log3 fk dbg nv neu mass nle M0 H0 ext jn jx js jf jst q0 wp we wt wj kp kpe dt mask loc taumax vmax ref HR HC). Qed.
Print Assumptions C103_turn.

(** The loop goes on exactly as long as the limits allow an acceleration. *)
Theorem C103_goes_on dif intg log3 fk dbg nv neu mass nle (M0 : mat Rnum) H0 ext jn jx js jf jst q0 wp we wt wj kp kpe dt mask loc taumax vmax ref :
  robot_fine dif intg log3 nv neu mass nle M0 H0 -> conf_fine nv neu q0 wp we wt wj dt mask taumax vmax ref -> exact_solver nv ext ->
  forall n st, after_turns dif intg log3 fk dbg nv neu mass nle M0 H0 ext jn jx js jf jst q0 wp we wt wj kp kpe dt mask loc taumax vmax ref n = Some st ->
  (exists st', after_turns dif intg log3 fk dbg nv neu mass nle M0 H0 ext jn jx js jf jst q0 wp we wt wj kp kpe dt mask loc taumax vmax ref (S n) = Some st') <-> exists z, admissible nv mass nle dt taumax vmax (a_q st) (a_v st) z.
Proof. exact (fun HR HC => arm_goes_on dif intg log3 fk dbg nv neu mass nle M0 H0 ext jn jx js jf jst q0 wp we wt wj kp kpe dt mask loc taumax vmax ref HR HC). Qed.
Print Assumptions C103_goes_on.

(** Velocities, torques and accelerations are within their limits after every turn. *)
Theorem C103_limits dif intg log3 fk dbg nv neu mass nle (M0 : mat Rnum) H0 ext jn jx js jf jst q0 wp we wt wj kp kpe dt mask loc taumax vmax ref :
  robot_fine dif intg log3 nv neu mass nle M0 H0 -> conf_fine nv neu q0 wp we wt wj dt mask taumax vmax ref -> exact_solver nv ext ->
  forall n st, after_turns dif intg log3 fk dbg nv neu mass nle M0 H0 ext jn jx js jf jst q0 wp we wt wj kp kpe dt mask loc taumax vmax ref (S n) = Some st -> forall i, i < nv ->
  (- vget vmax i <= vget (a_v st) i <= vget vmax i)%R /\ (- vget taumax i <= vget (a_tau st) i <= vget taumax i)%R /\ (- 10 ^ 10 <= vget (a_dv st) i <= 10 ^ 10)%R.
Proof. exact (fun HR HC => arm_limits dif intg log3 fk dbg nv neu mass nle M0 H0 ext jn jx js jf jst q0 wp we wt wj kp kpe dt mask loc taumax vmax ref HR HC). Qed.
Print Assumptions C103_limits.

(** With motors that can hold the arm at each velocity within the limits, the loop never stops. *)
Theorem C103_never_stops dif intg log3 fk dbg nv neu mass nle (M0 : mat Rnum) H0 ext jn jx js jf jst q0 wp we wt wj kp kpe dt mask loc taumax vmax ref :
  robot_fine dif intg log3 nv neu mass nle M0 H0 -> conf_fine nv neu q0 wp we wt wj dt mask taumax vmax ref -> exact_solver nv ext ->
  (forall i, i < nv -> (0 <= vget vmax i)%R) ->
  (forall q v : vec Rnum, vlen q = vlen neu -> vlen v = nv -> (forall i, i < nv -> (- vget vmax i <= vget v i <= vget vmax i)%R) -> forall i, i < nv -> (- vget taumax i <= vget (nle q v) i <= vget taumax i)%R) ->
  forall n, exists st, after_turns dif intg log3 fk dbg nv neu mass nle M0 H0 ext jn jx js jf jst q0 wp we wt wj kp kpe dt mask loc taumax vmax ref n = Some st /\ forall i, i < nv -> (- vget vmax i <= vget (a_v st) i <= vget vmax i)%R.
Proof. exact (fun HR HC => arm_never_stops dif intg log3 fk dbg nv neu mass nle M0 H0 ext jn jx js jf jst q0 wp we wt wj kp kpe dt mask loc taumax vmax ref HR HC). Qed.
Print Assumptions C103_never_stops.

(** There is such a solver. *)
Theorem C103_exact_solver n : exact_solver n (exact_answer n).
Proof. exact (exact_answer_exact n). Qed.
Print Assumptions C103_exact_solver.

(** The joint velocity that is plotted at time k dt is the one of time (k + 1) dt. *)
Theorem C103_plot dif intg log3 fk dbg nv neu mass nle (M0 : mat Rnum) H0 ext jn jx js jf jst q0 wp we wt wj kp kpe dt mask loc taumax vmax ref :
  robot_fine dif intg log3 nv neu mass nle M0 H0 -> conf_fine nv neu q0 wp we wt wj dt mask taumax vmax ref -> exact_solver nv ext ->
  forall n st, after_turns dif intg log3 fk dbg nv neu mass nle M0 H0 ext jn jx js jf jst q0 wp we wt wj kp kpe dt mask loc taumax vmax ref n = Some st -> List.length (a_plot st) = n /\
  forall k, k < n -> exists st', after_turns dif intg log3 fk dbg nv neu mass nle M0 H0 ext jn jx js jf jst q0 wp we wt wj kp kpe dt mask loc taumax vmax ref (S k) = Some st' /\ nth_error (a_plot st) k = Some (a_v st') /\ a_time st' = (INR k * dt + dt)%R.
Proof. exact (fun HR HC => arm_plot dif intg log3 fk dbg nv neu mass nle M0 H0 ext jn jx js jf jst q0 wp we wt wj kp kpe dt mask loc taumax vmax ref HR HC). Qed.
Print Assumptions C103_plot.

(** A solver that answers unsolvable problems with EIQUADPROG_FAST_INFEASIBLE never ends the loop
    once one problem was solved: what it leaves in its solution vector is applied. *)
Theorem C103_hidden dif intg log3 fk dbg nv neu mass nle (M0 : mat Rnum) H0 ext jn jx js jf jst q0 wp we wt wj kp kpe dt mask loc taumax vmax ref x :
  robot_fine dif intg log3 nv neu mass nle M0 H0 -> conf_fine nv neu q0 wp we wt wj dt mask taumax vmax ref -> finds nv ext -> hides nv ext x -> vlen x = nv ->
  (exists z, admissible nv mass nle dt taumax vmax q0 (vzero nv) z) -> forall n, exists st, after_turns dif intg log3 fk dbg nv neu mass nle M0 H0 ext jn jx js jf jst q0 wp we wt wj kp kpe dt mask loc taumax vmax ref (S n) = Some st /\
  forall st', after_turns dif intg log3 fk dbg nv neu mass nle M0 H0 ext jn jx js jf jst q0 wp we wt wj kp kpe dt mask loc taumax vmax ref n = Some st' -> ~ (exists z, admissible nv mass nle dt taumax vmax (a_q st') (a_v st') z) ->
  (forall i, i < nv -> vget (a_dv st) i = vget x i) /\ (forall i, i < nv -> vget (a_tau st) i = torque nv mass nle (a_q st') (a_v st') (vget x) i).
Proof. exact (fun HR HC => arm_hidden dif intg log3 fk dbg nv neu mass nle M0 H0 ext jn jx js jf jst q0 wp we wt wj kp kpe dt mask loc taumax vmax ref HR HC x). Qed.
Print Assumptions C103_hidden.

(** So without the condition on the code for unsolvable problems the torques may exceed the limits. *)
Theorem C103_limits_refuted : ~ (forall dif intg log3 fk dbg nv neu mass nle (M0 : mat Rnum) H0 ext jn jx js jf jst q0 wp we wt wj kp kpe dt mask loc taumax vmax ref n st,
  robot_fine dif intg log3 nv neu mass nle M0 H0 -> conf_fine nv neu q0 wp we wt wj dt mask taumax vmax ref -> finds nv ext ->
  after_turns dif intg log3 fk dbg nv neu mass nle M0 H0 ext jn jx js jf jst q0 wp we wt wj kp kpe dt mask loc taumax vmax ref (S n) = Some st -> forall i, i < nv -> (vget (a_tau st) i <= vget taumax i)%R).
Proof. exact limits_refuted. Qed.
Print Assumptions C103_limits_refuted.

(** One joint that has to follow a sinusoid: the loop never stops. *)
Example C103_case dbg jn jx js jf jst loc n : exists st,
  after_turns c_dif c_intg c_log3 c_fk dbg 1 (c_one 0) c_mass c_grav (@mkMat Rnum 1 1 (fun _ _ => 0%R)) (c_one 0) (exact_answer 1) jn jx js jf jst (c_one 0) (1 / 1000) 1 1 1 1 1 (/ 2) c_mask loc (c_one 2) (c_one 1) c_ref n = Some st /\
  (- 1 <= vget (a_v st) 0 <= 1)%R.
Proof. exact (case_runs dbg jn jx js jf jst loc n). Qed.
Print Assumptions C103_case.
