(** C102: the joint space program follows its references. *)
From Coq Require Import String List Arith Bool Reals.
From Verif Require Import Scalar Outcome Linalg Constraint Formulation FormSpec FormMain JointBounds JointTask JointTasks JointTasksP JointTasksR MaskReal LinearLoop ClosedLoop SampledTrack JointTrack JointProgram.
From Verif Require Solvers SolverSpec.
Import ListNotations.
Open Scope nat_scope.

(** With one posture task and nothing else, the solver returns the acceleration asked for, scaled
    by weight / (weight + regularisation); zero for a joint that is not in the mask. *)
Theorem C102_solution dif dbg nv i name neu (M0 : mat Rnum) H0 asc w r p q v acc :
  respects dif -> vlen neu = nv -> plain_joint dif nv nv nv i -> i < nv -> (0 < w)%R ->
  period dif dbg nv i name neu M0 H0 asc w r p q v acc ->
  (active (t_mask p) i -> acc = (w / (w + r) *
     (vget (t_sec p) i - vget (t_kp p) i * (vget q i - vget (t_val p) i) - vget (t_kd p) i * (vget v i - vget (t_der p) i)))%R) /\
  (~ active (t_mask p) i -> (0 < r)%R -> acc = 0%R).
Proof. exact (alone_plan dif dbg nv i name neu M0 H0 asc w r p q v acc). Qed.
Print Assumptions C102_solution.

(** The program makes as many turns as one likes, without an exception, undefined behaviour or a
    status other than OPTIMAL, and each joint keeps close to its reference. *)
Theorem C102_program dif intg dbg nv neu mass nle (M0 : mat Rnum) H0 ext jn js jb jst q0 w dt kp x x1 x2 :
  robot_fine dif intg nv neu mass nle M0 H0 -> (0 < w)%R -> vlen q0 = nv ->
  exact_ext dif intg dbg nv neu mass nle M0 H0 ext jn js jb jst q0 w dt kp x x1 x2 ->
  (7 * / 100000000 <= w -> 0 < kp -> 0 < dt -> sqrt kp * dt <= 1 / 2 ->
  forall n, exists st, after_turns dif intg dbg nv neu mass nle M0 H0 ext jn js jb jst q0 w dt kp x x1 x2 n = Some st /\ w_time st = INR n * dt /\
    forall i A B, (i < nv)%nat -> scalar_joint dif intg nv i -> thrice (x i) (x1 i) (x2 i) B -> (forall t, 0 <= t -> Rabs (x2 i t) <= A) ->
    let far := Rmax (Rabs (vget q0 i - x i 0)) (2 * Rabs (vget q0 i - x i 0 - x1 i 0 / sqrt kp)) in
    let left := (4 / 3 * dt * B + 3 * (/ 100000000 / (w + / 100000000)) * A) / kp in
    Rabs (vget (w_q st) i - x i (w_time st)) <= (1 - sqrt kp * dt / 2) ^ n * far + left /\
    Rabs (vget (w_v st) i - x1 i (w_time st)) <= sqrt kp * (3 / 2 * ((1 - sqrt kp * dt / 2) ^ n * far) + 2 * left))%R.
Proof. exact (program_tracks dif intg dbg nv neu mass nle M0 H0 ext jn js jb jst q0 w dt kp x x1 x2). Qed.
Print Assumptions C102_program.

(** Every problem of the program has a solution that can be written down, so exact external
    solvers exist. *)
Theorem C102_exact_solver dif intg dbg nv neu mass nle (M0 : mat Rnum) H0 ext jn js jb jst q0 w dt kp x x1 x2 :
  robot_fine dif intg nv neu mass nle M0 H0 -> (0 < w)%R -> vlen q0 = nv -> (forall P, ext P = pick nv P) ->
  exact_ext dif intg dbg nv neu mass nle M0 H0 ext jn js jb jst q0 w dt kp x x1 x2.
Proof. exact (pick_is_exact dif intg dbg nv neu mass nle M0 H0 ext jn js jb jst q0 w dt kp x x1 x2). Qed.
Print Assumptions C102_exact_solver.

(** With the numbers of the exercise: w = 1e-3, kp = 1, dt = 0.002, the sinusoids of lines 80-84. *)
Example C102_case dbg : forall n, exists st, run6 dbg n = Some st /\
  forall i, i < 6 -> (Rabs (vget (w_q st) i - ref6 i (2 / 1000 * INR n)) <=
    (999 / 1000) ^ n * (2 * Rabs (amp6 i * sin (phase6 i)) + 2 * Rabs (pulse6 i * amp6 i)) + (27 / 10000 * pulse6 i + 31 / 1000000) * (pulse6 i * pulse6 i * amp6 i))%R.
Proof. exact (exercise_numbers dbg). Qed.
Print Assumptions C102_case.
