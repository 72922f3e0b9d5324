(** Properties C89 and C90: what the PD laws of the motion tasks do in closed loop. *)
From Coq Require Import String List Arith Bool ZArith Reals Lia Lra.
From Verif Require Import Scalar Outcome Linalg Constraint FormPhysSpec RSum Masks MaskReal JointBounds JointTask JointTasks JointTasksP JointTasksR
  FrameTasks FrameTasksP FrameTasksR LinearLoop ClosedLoop ClosedLoopR.
Import ListNotations.
Open Scope nat_scope.

(** ** C89 tracking errors converge exponentially *)
(** [decays c r e d]: the error and its rate shrink like exp(- r t); the constants depend on
    the gains only, not on the robot, the trajectory or the start. [twice x x1 x2]: x1 is the
    derivative of x and x2 the derivative of x1 at all times t >= 0. *)
(** Posture task, joints whose configuration is one number, reference with its true derivatives. *)
Theorem C89_posture : forall kp kd, (0 < kp -> 0 < kd -> exists c r, 0 < r /\
  forall dif name neu nv na i (s s' : R -> post Rnum) (q v : R -> vec Rnum) (y : R -> nat -> R),
    respects dif -> (na <= nv)%nat -> (na <= vlen neu)%nat -> (i < na)%nat -> plain_joint dif (vlen neu) nv na i ->
    (forall t, 0 <= t -> tmade Rtrunc dif name neu na nv na (s t) /\ active (t_mask (s t)) i /\ vget (t_kp (s t)) i = kp /\ vget (t_kd (s t)) i = kd /\
       post_step Rtrunc dif (s t) (TCompute (q t) (v t)) = Ret (s' t) tt /\ sat (t_c (s' t)) (y t)) ->
    twice (fun t => vget (q t) (vlen neu - na + i)) (fun t => last_of na (v t) i) (fun t => y t (nv - na + i)%nat) ->
    twice (fun t => vget (t_val (s t)) i) (fun t => vget (t_der (s t)) i) (fun t => vget (t_sec (s t)) i) ->
    decays c r (fun t => vget (q t) (vlen neu - na + i) - vget (t_val (s t)) i) (fun t => last_of na (v t) i - vget (t_der (s t)) i))%R.
Proof. exact posture_converges. Qed.
Print Assumptions C89_posture.
(** Critical damping: the error is known exactly. *)
Theorem C89_posture_critical : forall w dif name neu nv na i (s s' : R -> post Rnum) (q v : R -> vec Rnum) (y : R -> nat -> R),
    respects dif -> na <= nv -> na <= vlen neu -> i < na -> plain_joint dif (vlen neu) nv na i ->
    (forall t, (0 <= t)%R -> tmade Rtrunc dif name neu na nv na (s t) /\ active (t_mask (s t)) i /\ vget (t_kp (s t)) i = (w * w)%R /\ vget (t_kd (s t)) i = (2 * w)%R /\
       post_step Rtrunc dif (s t) (TCompute (q t) (v t)) = Ret (s' t) tt /\ sat (t_c (s' t)) (y t)) ->
    twice (fun t => vget (q t) (vlen neu - na + i)) (fun t => last_of na (v t) i) (fun t => y t (nv - na + i)) ->
    twice (fun t => vget (t_val (s t)) i) (fun t => vget (t_der (s t)) i) (fun t => vget (t_sec (s t)) i) ->
    let e t := (vget (q t) (vlen neu - na + i)%nat - vget (t_val (s t)) i)%R in let d t := (last_of na (v t) i - vget (t_der (s t)) i)%R in
    forall t, (0 <= t)%R -> e t = ((e 0 + (d 0 + w * e 0) * t) * exp (- w * t))%R.
Proof. exact posture_critical. Qed.
Print Assumptions C89_posture_critical.
(** Centre of mass. *)
Theorem C89_com : forall kp kd, (0 < kp -> 0 < kd -> exists c r, 0 < r /\
  forall name nv i (s s' : R -> comt Rnum) (d : R -> cdata Rnum) (y : R -> nat -> R), (i < 3)%nat ->
    (forall t, 0 <= t -> @com_made Rnum Rtrunc name nv (s t) /\ on (z_mask (s t)) i /\ z_kp (s t) i = kp /\ z_kd (s t) i = kd /\
       com_step Rtrunc (s t) (ZCompute (d t)) = Ret (s' t) tt /\ sat (h_c (z_h (s' t))) (y t)) ->
    twice (fun t => g_p (d t) i) (fun t => g_v (d t) i) (fun t => accel nv (g_J (d t)) (g_a (d t)) (y t) i) ->
    twice (fun t => vget (z_val (s t)) i) (fun t => vget (z_der (s t)) i) (fun t => vget (z_sec (s t)) i) ->
    decays c r (fun t => g_p (d t) i - vget (z_val (s t)) i) (fun t => g_v (d t) i - vget (z_der (s t)) i))%R.
Proof. exact com_converges. Qed.
Print Assumptions C89_com.
(** Angular momentum: exactly exponential. *)
Theorem C89_angular_momentum : forall kp, forall name nv i (s s' : R -> amt Rnum) (v : R -> vec Rnum) (d : R -> adata Rnum) (y : R -> nat -> R), i < 3 ->
    (forall t, (0 <= t)%R -> @am_made Rnum name nv (s t) /\ o_kp (s t) i = kp /\ am_step (s t) (OCompute (v t) (d t)) = Ret (s' t) tt /\ sat (o_c (s' t)) (y t)) ->
    (forall t, (0 <= t)%R -> derivable_pt_lim (fun u => am_momentum nv (am_J (d u)) (vget (v u)) i) t (accel nv (am_J (d t)) (am_d (d t)) (y t) i)) ->
    (forall t, (0 <= t)%R -> derivable_pt_lim (fun u => vget (o_val (s u)) i) t (vget (o_der (s t)) i)) ->
    forall t, (0 <= t)%R -> (am_momentum nv (am_J (d t)) (vget (v t)) i - vget (o_val (s t)) i =
      (am_momentum nv (am_J (d 0)) (vget (v 0)) i - vget (o_val (s 0)) i) * exp (- kp * t))%R.
Proof. exact am_converges. Qed.
Print Assumptions C89_angular_momentum.
(** Position of a frame, axes of the world. *)
Theorem C89_frame_world : forall kp kd, (0 < kp -> 0 < kd -> exists c r, 0 < r /\
  forall log3, reads9 log3 -> forall name nv i (s s' : R -> se3t Rnum) (d : R -> fdata Rnum) (y : R -> nat -> R), (i < 3)%nat ->
    (forall t, 0 <= t -> @se3_made Rnum Rtrunc log3 name nv (s t) /\ x_local (s t) = false /\ orthogonal (d_R (d t)) /\ on (x_mask (s t)) i /\
       vget (x_kp (s t)) i = kp /\ vget (x_kd (s t)) i = kd /\
       @se3_step Rnum Rtrunc log3 (s t) (XCompute (d t)) = Ret (s' t) tt /\ sat (h_c (x_h (s' t))) (y t)) ->
    twice (fun t => d_p (d t) i) (fun t => rot (d_R (d t)) (d_v (d t)) i) (fun t => rot (d_R (d t)) (accel nv (d_J (d t)) (d_a (d t)) (y t)) i) ->
    twice (fun t => x_pd (s t) i) (fun t => x_vd (s t) i) (fun t => x_ad (s t) i) ->
    decays c r (fun t => d_p (d t) i - x_pd (s t) i) (fun t => rot (d_R (d t)) (d_v (d t)) i - x_vd (s t) i))%R.
Proof. exact frame_world_converges. Qed.
Print Assumptions C89_frame_world.
(** Position of a frame, axes of the frame, equal gains for the three axes. *)
Theorem C89_frame_local : forall kp kd, (0 < kp -> 0 < kd -> exists c r, 0 < r /\
  forall log3, reads9 log3 -> forall name nv (s s' : R -> se3t Rnum) (d : R -> fdata Rnum) (y : R -> nat -> R),
    (forall t, 0 <= t -> @se3_made Rnum Rtrunc log3 name nv (s t) /\ x_local (s t) = true /\ orthogonal (d_R (d t)) /\
       (forall i, (i < 3)%nat -> on (x_mask (s t)) i /\ vget (x_kp (s t)) i = kp /\ vget (x_kd (s t)) i = kd) /\
       @se3_step Rnum Rtrunc log3 (s t) (XCompute (d t)) = Ret (s' t) tt /\ sat (h_c (x_h (s' t))) (y t)) ->
    (forall i, (i < 3)%nat -> twice (fun t => d_p (d t) i) (fun t => rot (d_R (d t)) (d_v (d t)) i) (fun t => rot (d_R (d t)) (accel nv (d_J (d t)) (d_a (d t)) (y t)) i)) ->
    (forall i, (i < 3)%nat -> twice (fun t => x_pd (s t) i) (fun t => x_vd (s t) i) (fun t => x_ad (s t) i)) ->
    forall i, (i < 3)%nat -> decays c r (fun t => d_p (d t) i - x_pd (s t) i) (fun t => rot (d_R (d t)) (d_v (d t)) i - x_vd (s t) i))%R.
Proof. exact frame_local_converges. Qed.
Print Assumptions C89_frame_local.
(** Distance of two frames. *)
Theorem C89_two_frames : forall kp kd, (0 < kp -> 0 < kd -> exists c r, 0 < r /\
  forall log3, reads9 log3 -> forall name nv i (s s' : R -> tft Rnum) (d1 d2 : R -> fdata Rnum) (y : R -> nat -> R), (i < 3)%nat ->
    (forall t, 0 <= t -> @tf_made Rnum Rtrunc log3 name nv (s t) /\ orthogonal (d_R (d1 t)) /\ on (y_mask (s t)) i /\
       vget (y_kp (s t)) i = kp /\ vget (y_kd (s t)) i = kd /\
       @tf_step Rnum Rtrunc log3 (s t) (YCompute (d1 t) (d2 t)) = Ret (s' t) tt /\ sat (h_c (y_h (s' t))) (y t)) ->
    twice (fun t => d_p (d1 t) i) (fun t => rot (d_R (d1 t)) (d_v (d1 t)) i) (fun t => rot (d_R (d1 t)) (accel nv (d_J (d1 t)) (d_a (d1 t)) (y t)) i) ->
    twice (fun t => d_p (d2 t) i) (fun t => rot (d_R (d2 t)) (d_v (d2 t)) i) (fun t => rot (d_R (d2 t)) (accel nv (d_J (d2 t)) (d_a (d2 t)) (y t)) i) ->
    decays c r (fun t => d_p (d1 t) i - d_p (d2 t) i) (fun t => rot (d_R (d1 t)) (d_v (d1 t)) i - rot (d_R (d2 t)) (d_v (d2 t)) i))%R.
Proof. exact two_frames_converge. Qed.
Print Assumptions C89_two_frames.
(** Such closed loops exist: errors equal to exp(-t) for kp = 1, kd = 2 in the first four tasks. *)
Example C89_case : exists (s s' : R -> post Rnum) (q v : R -> vec Rnum) (y : R -> nat -> R),
    respects dif1 /\ plain_joint dif1 1 1 1 0 /\
    (forall t, (0 <= t)%R -> tmade Rtrunc dif1 "posture" (vzero 1) 1 1 1 (s t) /\ active (t_mask (s t)) 0 /\ vget (t_kp (s t)) 0 = 1%R /\ vget (t_kd (s t)) 0 = 2%R /\
       post_step Rtrunc dif1 (s t) (TCompute (q t) (v t)) = Ret (s' t) tt /\ sat (t_c (s' t)) (y t)) /\
    twice (fun t => vget (q t) 0) (fun t => last_of 1 (v t) 0) (fun t => y t 0) /\
    twice (fun t => vget (t_val (s t)) 0) (fun t => vget (t_der (s t)) 0) (fun t => vget (t_sec (s t)) 0) /\
    (vget (q 0%R) 0 - vget (t_val (s 0%R)) 0 = 1)%R.
Proof. exact posture_loop. Qed.
Example C89_case2 : exists (s s' : R -> comt Rnum) (d : R -> cdata Rnum) (y : R -> nat -> R), forall i, i < 3 ->
    (forall t, (0 <= t)%R -> @com_made Rnum Rtrunc "com" 3 (s t) /\ on (z_mask (s t)) i /\ z_kp (s t) i = 1%R /\ z_kd (s t) i = 2%R /\
       com_step Rtrunc (s t) (ZCompute (d t)) = Ret (s' t) tt /\ sat (h_c (z_h (s' t))) (y t)) /\
    twice (fun t => g_p (d t) i) (fun t => g_v (d t) i) (fun t => accel 3 (g_J (d t)) (g_a (d t)) (y t) i) /\
    twice (fun t => vget (z_val (s t)) i) (fun t => vget (z_der (s t)) i) (fun t => vget (z_sec (s t)) i) /\
    (g_p (d 0%R) i - vget (z_val (s 0%R)) i = 1)%R.
Proof. exact com_loop. Qed.
Example C89_case3 : exists (s s' : R -> amt Rnum) (v : R -> vec Rnum) (d : R -> adata Rnum) (y : R -> nat -> R), forall i, i < 3 ->
    (forall t, (0 <= t)%R -> @am_made Rnum "am" 3 (s t) /\ o_kp (s t) i = 1%R /\ am_step (s t) (OCompute (v t) (d t)) = Ret (s' t) tt /\ sat (o_c (s' t)) (y t)) /\
    (forall t, (0 <= t)%R -> derivable_pt_lim (fun u => am_momentum 3 (am_J (d u)) (vget (v u)) i) t (accel 3 (am_J (d t)) (am_d (d t)) (y t) i)) /\
    (forall t, (0 <= t)%R -> derivable_pt_lim (fun u => vget (o_val (s u)) i) t (vget (o_der (s t)) i)) /\
    (am_momentum 3 (am_J (d 0%R)) (vget (v 0%R)) i - vget (o_val (s 0%R)) i = 1)%R.
Proof. exact am_loop. Qed.
Example C89_case4 : forall log3 b, reads9 log3 -> neutral_log log3 -> exists (s s' : R -> se3t Rnum) (d : R -> fdata Rnum) (y : R -> nat -> R), forall i, i < 3 ->
    (forall t, (0 <= t)%R -> @se3_made Rnum Rtrunc log3 "frame" 6 (s t) /\ x_local (s t) = b /\ orthogonal (d_R (d t)) /\ on (x_mask (s t)) i /\
       vget (x_kp (s t)) i = 1%R /\ vget (x_kd (s t)) i = 2%R /\
       @se3_step Rnum Rtrunc log3 (s t) (XCompute (d t)) = Ret (s' t) tt /\ sat (h_c (x_h (s' t))) (y t)) /\
    twice (fun t => d_p (d t) i) (fun t => rot (d_R (d t)) (d_v (d t)) i) (fun t => rot (d_R (d t)) (accel 6 (d_J (d t)) (d_a (d t)) (y t)) i) /\
    twice (fun t => x_pd (s t) i) (fun t => x_vd (s t) i) (fun t => x_ad (s t) i) /\
    (d_p (d 0%R) i - x_pd (s 0%R) i = 1)%R.
Proof. exact frame_loop. Qed.

(** ** C90 sampled loops: exactly which gains are stable *)
(** [settles intg dt kp kd]: every loop of a posture task with these gains and a resting
    reference, sampled every dt and integrated by intg, brings error and velocity to zero. *)
Theorem C90_tutorials : forall dt kp kd, (0 < dt -> settles mean_step dt kp kd <-> 0 < kp /\ kp * dt < 2 * kd /\ kd * dt < 2)%R.
Proof. exact mean_settles. Qed.
Print Assumptions C90_tutorials.
Theorem C90_tests : forall dt kp kd, (0 < dt -> settles last_step dt kp kd <-> 0 < kp /\ 0 < kd /\ 2 * (kd * dt) + kp * dt * dt < 4)%R.
Proof. exact last_settles. Qed.
Print Assumptions C90_tests.
(** The damping the exercises use. *)
Theorem C90_critical_damping : forall dt kp, (0 < dt -> 0 < kp ->
  (settles mean_step dt kp (2 * sqrt kp) <-> sqrt kp * dt < 1) /\ (settles last_step dt kp (2 * sqrt kp) <-> sqrt kp * dt < 2 * sqrt 2 - 2))%R.
Proof. exact critical_settles. Qed.
Print Assumptions C90_critical_damping.
(** Loops exist from every start; kp = kd = dt = 1 settles, without damping
    none of the two integrators does. *)
Example C90_case : forall dt kp kd e0 d0, exists e d, sampled mean_step dt kp kd e d /\ e 0 = e0 /\ d 0 = d0.
Proof.
  intros dt kp kd e0 d0. pose (o := orbit (1 - kp * dt * dt / 2) (dt - kd * dt * dt / 2) (- kp * dt) (1 - kd * dt) e0 d0).
  exists (fun n => fst (o n)), (fun n => snd (o n)). split; [|split; reflexivity]. apply orbit_sampled. intros n.
  destruct (orbit_iterates (1 - kp * dt * dt / 2) (dt - kd * dt * dt / 2) (- kp * dt) (1 - kd * dt) e0 d0 n) as [A B]. fold o in A, B. rewrite A, B. unfold mean_step. split; field.
Qed.
Example C90_case2 : settles mean_step 1 1 1 /\ ~ settles mean_step 1 1 0 /\ ~ settles last_step 1 1 0.
Proof.
  split; [|split].
  - apply C90_tutorials; lra.
  - intros H. apply C90_tutorials in H; lra.
  - intros H. apply C90_tests in H; lra.
Qed.
