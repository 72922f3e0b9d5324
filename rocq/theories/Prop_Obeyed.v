(** Properties C97 and C98: the robot under the torques of the controller. *)
From Coq Require Import String List Arith Bool ZArith Reals Lia Lra.
From Verif Require Import Scalar Outcome Linalg Constraint Formulation FormSpec FormPhysSpec RSum FormMain FormSolver RobotModelR ObeyedPlan ObeyedPlanP ObeyedPlanR.
From Verif Require Import Masks MaskReal JointBounds JointTask JointTasks JointTasksP JointTasksR FrameTasks FrameTasksP FrameTasksR FrameRefute ContactMotion ContactMotionP LinearLoop ClosedLoop RotLoop RotLoop2 OrientLoop OrientLoopR ContactHold ContactHoldR.
Import ListNotations.
Open Scope list_scope.
Open Scope nat_scope.

(** ** C97 the robot does what was planned *)
(** [controls]: one period of the controller (any formulation history, computeProblemData, any
    solver history, OPTIMAL from an exact external solver, getActuatorForces).  [obeys]: equations
    of motion of the robot under these torques, with ground actions [w] and accelerations [a]. *)
Theorem C97_acceleration : forall dbg nv na M0 H0 asc e s y tau, controls dbg nv na M0 H0 asc e s y tau ->
  forall w a, posdef nv (mget (e_mass e)) -> obeys s e tau w a -> all_hard s -> feet_held s e a -> forall j, j < nv -> a j = vget y j.
Proof. exact robot_follows. Qed.
Print Assumptions C97_acceleration.
Theorem C97_forces : forall dbg nv na M0 H0 asc e s y tau, controls dbg nv na M0 H0 asc e s y tau ->
  forall w a, posdef nv (mget (e_mass e)) -> obeys s e tau w a -> all_hard s -> feet_held s e a -> independent s e ->
  forall c q, In c (f_contacts s) -> q < mrows (foot_mat e c) -> w c q = planned_action s e (vget y) c q.
Proof. exact ground_gives. Qed.
Print Assumptions C97_forces.
Theorem C97_tasks : forall dbg nv na M0 H0 asc e s y tau, controls dbg nv na M0 H0 asc e s y tau ->
  forall w a, posdef nv (mget (e_mass e)) -> obeys s e tau w a -> all_hard s -> feet_held s e a ->
  forall t, In t (f_motions s) -> tl_prio t = 0 -> sat (e_task e (tl_task t)) a.
Proof. exact tasks_hold. Qed.
Print Assumptions C97_tasks.
(** The plan is one of the motions the equations allow, for hard and soft contacts. *)
Theorem C97_plan_is_motion : forall dbg nv na M0 H0 asc e s y tau, controls dbg nv na M0 H0 asc e s y tau -> obeys s e tau (planned_action s e (vget y)) (vget y).
Proof. exact plan_obeys. Qed.
Print Assumptions C97_plan_is_motion.
(** There is such a period whenever some motion is consistent. *)
Theorem C97_possible : forall dbg nv na (M0 : mat Rnum) H0 asc s t e s' cl0 cl1, FormMain.robot_ok nv M0 H0 ->
  reach (Formulation.step dbg) (assoc_good dbg asc) (init nv na M0 H0) s -> assoc_good dbg asc s (Formulation.OCompute t e) -> Formulation.step dbg s (Formulation.OCompute t e) = Ret s' OutUnit ->
  problem_of s' [cl0; cl1] -> (forall w c, In (w, c) cl1 -> c_kind c = CEq /\ (0 <= (w : R))%R) -> (exists z, physical s' e z) ->
  exists y tau, controls dbg nv na M0 H0 asc e s' y tau.
Proof. exact control_possible. Qed.
Print Assumptions C97_possible.
(** A foot at rest on its placement, which the ground keeps at rest, meets [feet_held], whatever
    the gains of the contact. *)
Theorem C97_feet : forall log3 nv F a, reads9 log3 -> principal log3 -> stuck log3 nv F a -> eq_holds (fst F) (snd F) a.
Proof. exact stuck_held. Qed.
Print Assumptions C97_feet.
(** Kept at rest somewhere else, with a gain on the error, the robot cannot do what was planned. *)
Theorem C97_off_placement : forall dbg nv na M0 H0 asc e s y tau log3 a c l d i, reads9 log3 -> i < 3 -> controls dbg nv na M0 H0 asc e s y tau -> In c (f_contacts s) -> hard_motion s c ->
  (rests_six log3 nv (e_cmotion e (cl_obj c)) a l d /\ (u_kp (told true l) i * rot (tr (d_R d)) (vminus (u_p (told true l)) (d_p d)) i <> 0)%R) \/
  (rests_point log3 nv (e_cmotion e (cl_obj c)) a l d /\ (u_kp (told false l) i * (if u_local (told false l) then rot (tr (d_R d)) (vminus (u_p (told false l)) (d_p d)) i else u_p (told false l) i - d_p d i) <> 0)%R) ->
  exists j, j < nv /\ a j <> vget y j.
Proof. exact off_deviates. Qed.
Print Assumptions C97_off_placement.

(** Robots meeting the hypotheses: one that follows, one whose foot is one metre off. *)
Example C97_example : exists e s y tau w a,
  controls false 7 1 (mzero 7 7) (vzero 7) asc7 e s y tau /\ posdef 7 (mget (e_mass e)) /\ obeys s e tau w a /\ all_hard s /\ feet_held s e a /\ independent s e /\
  exists c, In c (f_contacts s) /\ mrows (foot_mat e c) = 6.
Proof. exact follow_scene. Qed.
Example C97_example_off : forall kd, exists e s y tau c,
  controls false 7 1 (mzero 7 7) (vzero 7) asc7 e s y tau /\ In c (f_contacts s) /\ all_hard s /\
  rests_six plain_log 7 (e_cmotion e (cl_obj c)) (joint7 0) (set_up 6 (fun _ => 1%R) kd true) off7 /\
  (u_kp (told true (set_up 6 (fun _ => 1%R) kd true)) 0 * rot (tr (d_R off7)) (vminus (u_p (told true (set_up 6 (fun _ => 1%R) kd true))) (d_p off7)) 0 <> 0)%R.
Proof. intros kd. exact (off_scene plain_log kd plain_reads9 plain_principal). Qed.

(** ** C98 tasks of level 0 reach their references through formulation, solver, robot and ground *)
(** [driven log3 nv e k a]: one instant with data [e]: the controller ran, the torques went to a
    robot with positive definite mass matrix that obeys the equations of motion with accelerations
    [a], all contacts are hard and rest on their placements, task [k] is at level 0. *)
Theorem C98_com : forall log3, reads9 log3 -> principal log3 -> forall kp kd, (0 < kp -> 0 < kd -> exists c r, 0 < r /\
  forall name nv k i (s s' : R -> comt Rnum) (d : R -> cdata Rnum) (e : R -> env Rnum) (a : R -> nat -> R), (i < 3)%nat ->
    (forall t, 0 <= t -> driven log3 nv (e t) k (a t) /\ @com_made Rnum Rtrunc name nv (s t) /\ on (z_mask (s t)) i /\ z_kp (s t) i = kp /\ z_kd (s t) i = kd /\
       com_step Rtrunc (s t) (ZCompute (d t)) = Ret (s' t) tt /\ e_task (e t) k = h_c (z_h (s' t))) ->
    twice (fun t => g_p (d t) i) (fun t => g_v (d t) i) (fun t => accel nv (g_J (d t)) (g_a (d t)) (a t) i) ->
    twice (fun t => vget (z_val (s t)) i) (fun t => vget (z_der (s t)) i) (fun t => vget (z_sec (s t)) i) ->
    decays c r (fun t => g_p (d t) i - vget (z_val (s t)) i) (fun t => g_v (d t) i - vget (z_der (s t)) i))%R.
Proof. exact driven_com. Qed.
Print Assumptions C98_com.
Theorem C98_posture : forall log3, reads9 log3 -> principal log3 -> forall kp kd, (0 < kp -> 0 < kd -> exists c r, 0 < r /\
  forall dif name neu nv na k i (s s' : R -> post Rnum) (q v : R -> vec Rnum) (e : R -> env Rnum) (a : R -> nat -> R),
    respects dif -> (na <= nv)%nat -> (na <= vlen neu)%nat -> (i < na)%nat -> plain_joint dif (vlen neu) nv na i ->
    (forall t, 0 <= t -> driven log3 nv (e t) k (a t) /\ tmade Rtrunc dif name neu na nv na (s t) /\ active (t_mask (s t)) i /\ vget (t_kp (s t)) i = kp /\ vget (t_kd (s t)) i = kd /\
       post_step Rtrunc dif (s t) (TCompute (q t) (v t)) = Ret (s' t) tt /\ e_task (e t) k = t_c (s' t)) ->
    twice (fun t => vget (q t) (vlen neu - na + i)) (fun t => last_of na (v t) i) (fun t => a t (nv - na + i)%nat) ->
    twice (fun t => vget (t_val (s t)) i) (fun t => vget (t_der (s t)) i) (fun t => vget (t_sec (s t)) i) ->
    decays c r (fun t => vget (q t) (vlen neu - na + i) - vget (t_val (s t)) i) (fun t => last_of na (v t) i - vget (t_der (s t)) i))%R.
Proof. exact driven_posture. Qed.
Print Assumptions C98_posture.
Theorem C98_frame : forall log3, reads9 log3 -> principal log3 -> forall kp kd, (0 < kp -> 0 < kd -> exists c r, 0 < r /\
  forall name nv k i (s s' : R -> se3t Rnum) (d : R -> fdata Rnum) (e : R -> env Rnum) (a : R -> nat -> R), (i < 3)%nat ->
    (forall t, 0 <= t -> driven log3 nv (e t) k (a t) /\ @se3_made Rnum Rtrunc log3 name nv (s t) /\ x_local (s t) = false /\ orthogonal (d_R (d t)) /\ on (x_mask (s t)) i /\
       vget (x_kp (s t)) i = kp /\ vget (x_kd (s t)) i = kd /\
       @se3_step Rnum Rtrunc log3 (s t) (XCompute (d t)) = Ret (s' t) tt /\ e_task (e t) k = h_c (x_h (s' t))) ->
    twice (fun t => d_p (d t) i) (fun t => rot (d_R (d t)) (d_v (d t)) i) (fun t => rot (d_R (d t)) (accel nv (d_J (d t)) (d_a (d t)) (a t)) i) ->
    twice (fun t => x_pd (s t) i) (fun t => x_vd (s t) i) (fun t => x_ad (s t) i) ->
    decays c r (fun t => d_p (d t) i - x_pd (s t) i) (fun t => rot (d_R (d t)) (d_v (d t)) i - x_vd (s t) i))%R.
Proof. exact driven_frame. Qed.
Print Assumptions C98_frame.

(** A robot standing on one foot, with any gains of the contact, whose centre of mass starts one
    metre from its reference. *)
Example C98_example : forall kp kd, exists (s s' : R -> comt Rnum) (d : R -> cdata Rnum) (e : R -> env Rnum) (a : R -> nat -> R),
  (forall t, (0 <= t)%R -> driven plain_log 7 (e t) 0 (a t) /\ @com_made Rnum Rtrunc "com"%string 7 (s t) /\ on (z_mask (s t)) 0 /\ z_kp (s t) 0 = 1%R /\ z_kd (s t) 0 = 2%R /\
     com_step Rtrunc (s t) (ZCompute (d t)) = Ret (s' t) tt /\ e_task (e t) 0 = h_c (z_h (s' t))) /\
  (forall t, exists s1, e_cmotion (e t) 0 = foot_of (h_c (x_h s1)) /\ rests_six plain_log 7 (foot_of (h_c (x_h s1))) (a t) (set_up 6 kp kd true) rest7) /\
  twice (fun t => g_p (d t) 0) (fun t => g_v (d t) 0) (fun t => accel 7 (g_J (d t)) (g_a (d t)) (a t) 0) /\
  twice (fun t => vget (z_val (s t)) 0) (fun t => vget (z_der (s t)) 0) (fun t => vget (z_sec (s t)) 0) /\
  (g_p (d 0) 0%nat - vget (z_val (s 0)) 0%nat = 1)%R.
Proof. intros kp kd. exact (standing_loop plain_log kp kd plain_reads9 plain_principal). Qed.
