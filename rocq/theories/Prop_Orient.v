(** Property C94: orientation of the frames of the SE3 and two-frames tasks in closed loop. *)
From Coq Require Import String List Arith Bool ZArith Reals Lia Lra.
From Verif Require Import Scalar Outcome Linalg Constraint FormPhysSpec RSum Masks MaskReal JointTask FrameTasks FrameTasksP FrameTasksR
  LinearLoop ClosedLoop ClosedLoopR RotLoop RotLoop2 OrientLoop OrientLoopR.
Import ListNotations.
Open Scope nat_scope.

(** ** C94 the orientation converges to its reference *)
(** [apart A B t] is the angle between the frames A and B at time t, between 0 and pi;
    [speed2 w wd t] the squared difference of their angular velocities in world axes. [principal]
    says that log3 returns axis times angle below a half turn. [frame_runs]: the task, in either of
    its two modes, has equal angular gains and no masked angular component, and its constraint
    holds; [frame_spins] and [reference_spins] say that rotations, velocities and accelerations of
    robot and reference belong together. *)
(** The energy never grows, so a start below a half turn stays there, however fast the
    reference moves. *)
Theorem C94_stays_near : forall kp kd m, (0 < kp -> 0 < kd -> 0 <= m < PI ->
  forall log3, reads9 log3 -> principal log3 -> forall name nv s s' d y, frame_runs log3 kp kd name nv s s' d y -> frame_spins nv d y -> reference_spins s ->
    let A := fun t => d_R (d t) in let B := fun t => x_Rd (s t) in let w := fun t => rot (d_R (d t)) (ang (d_v (d t))) in let wd := fun t => ang (x_vd (s t)) in
    kp * (apart A B 0 * apart A B 0) + speed2 w wd 0 <= kp * (m * m) -> forall t, 0 <= t ->
    apart A B t <= m /\ kp * (apart A B t * apart A B t) + speed2 w wd t <= kp * (apart A B 0 * apart A B 0) + speed2 w wd 0)%R.
Proof. exact frame_stays_near. Qed.
Print Assumptions C94_stays_near.
(** Exponential convergence of angle and angular velocity when the reference turns at a bounded
    rate; the constants depend on the gains, the bound on the angle and that rate only. *)
Theorem C94_frame : forall kp kd m O2, (0 < kp -> 0 < kd -> 0 <= m < PI -> 0 <= O2 -> exists c r, 0 < r /\
  forall log3, reads9 log3 -> principal log3 -> forall name nv s s' d y, frame_runs log3 kp kd name nv s s' d y -> frame_spins nv d y -> reference_spins s ->
    let A := fun t => d_R (d t) in let B := fun t => x_Rd (s t) in let w := fun t => rot (d_R (d t)) (ang (d_v (d t))) in let wd := fun t => ang (x_vd (s t)) in
    (forall t, 0 <= t -> dot3 (wd t) (wd t) <= O2) ->
    kp * (apart A B 0 * apart A B 0) + speed2 w wd 0 <= kp * (m * m) -> aligns c r m A B w wd)%R.
Proof. exact frame_aligns. Qed.
Print Assumptions C94_frame.
Theorem C94_two_frames : forall kp kd m O2, (0 < kp -> 0 < kd -> 0 <= m < PI -> 0 <= O2 -> exists c r, 0 < r /\
  forall log3, reads9 log3 -> principal log3 -> forall name nv s s' d1 d2 y, pair_runs log3 kp kd name nv s s' d1 d2 y -> frame_spins nv d1 y -> frame_spins nv d2 y ->
    let A := fun t => d_R (d1 t) in let B := fun t => d_R (d2 t) in let w := fun t => rot (d_R (d1 t)) (ang (d_v (d1 t))) in let wd := fun t => rot (d_R (d2 t)) (ang (d_v (d2 t))) in
    (forall t, 0 <= t -> dot3 (wd t) (wd t) <= O2) ->
    kp * (apart A B 0 * apart A B 0) + speed2 w wd 0 <= kp * (m * m) -> aligns c r m A B w wd)%R.
Proof. exact pair_aligns. Qed.
Print Assumptions C94_two_frames.
(** A logarithm as assumed exists. *)
Example C94_logarithm : reads9 plain_log /\ principal plain_log.
Proof. split; [exact plain_reads9|exact plain_principal]. Qed.
(** Loops meeting the hypotheses, in both modes, one radian off at the start. *)
Example C94_example_frame : forall b, exists (s s' : R -> se3t Rnum) (d : R -> fdata Rnum) (y : R -> nat -> R),
    frame_runs plain_log 1 2 "frame" 6 s s' d y /\ (forall t, x_local (s t) = b) /\ frame_spins 6 d y /\ reference_spins s /\
    (forall t, (0 <= t)%R -> dot3 (ang (x_vd (s t))) (ang (x_vd (s t))) = 0%R) /\
    (let A := fun t => d_R (d t) in let B := fun t => x_Rd (s t) in
     (forall t, 0 <= t -> apart A B t = exp (- 1 * t)) /\
     1 * (apart A B 0 * apart A B 0) + speed2 (fun t => rot (d_R (d t)) (ang (d_v (d t)))) (fun t => ang (x_vd (s t))) 0 <= 1 * (3 / 2 * (3 / 2)) /\ 3 / 2 < PI)%R.
Proof. intros b. exact (orient_loop plain_log b plain_reads9 plain_principal). Qed.
Example C94_example_two_frames : exists (s s' : R -> tft Rnum) (d1 d2 : R -> fdata Rnum) (y : R -> nat -> R),
    pair_runs plain_log 1 2 "frames" 6 s s' d1 d2 y /\ frame_spins 6 d1 y /\ frame_spins 6 d2 y /\
    (forall t, (0 <= t)%R -> dot3 (rot (d_R (d2 t)) (ang (d_v (d2 t)))) (rot (d_R (d2 t)) (ang (d_v (d2 t)))) = 0%R) /\
    (let A := fun t => d_R (d1 t) in let B := fun t => d_R (d2 t) in
     (forall t, 0 <= t -> apart A B t = exp (- 1 * t)) /\
     1 * (apart A B 0 * apart A B 0) + speed2 (fun t => rot (d_R (d1 t)) (ang (d_v (d1 t)))) (fun t => rot (d_R (d2 t)) (ang (d_v (d2 t)))) 0 <= 1 * (3 / 2 * (3 / 2)))%R.
Proof. exact (pair_loop plain_log plain_reads9 plain_principal). Qed.
