(** Property C95: contacts in closed loop. *)
From Coq Require Import String List Arith Bool ZArith Reals Lia Lra.
From Verif Require Import Scalar Outcome Linalg Constraint FormPhysSpec RSum Masks MaskReal FrameTasks FrameTasksP FrameTasksR FrameRefute.
From Verif Require Import ContactMotion ContactMotionP LinearLoop ClosedLoop ClosedLoopR RotLoop RotLoop2 OrientLoop OrientLoopR ContactHold ContactHoldP ContactHoldR.
Import ListNotations.
Open Scope nat_scope.

(** ** C95 contacts hold their placement *)
(** [w] is what the calls of the user amount to (gains, placement, axes; C74). [point_runs],
    [six_runs], [two_runs]: at every time the contact was constructed and given calls amounting to
    [w], compute succeeded on the robot's data and the accelerations satisfy its rows.
    [frame_moves] and [frame_spins]: the frame moves as data and accelerations say. *)
(** On the placement and at rest at the start: there for ever, whatever the gains, their sign
    included. *)
Theorem C95_point : forall log3 name nv w d y, reads9 log3 -> point_runs log3 name nv w d y -> frame_moves nv d y ->
  (forall i, i < 3 -> d_p (d 0%R) i = u_p w i /\ d_v (d 0%R) i = 0%R) ->
  forall t, (0 <= t)%R -> forall i, i < 3 -> d_p (d t) i = u_p w i /\ d_v (d t) i = 0%R.
Proof. exact point_held. Qed.
Print Assumptions C95_point.
Theorem C95_six : forall log3 name nv w d y, reads9 log3 -> principal log3 -> proper (u_R w) -> six_runs log3 name nv w d y -> frame_moves nv d y -> frame_spins nv d y ->
  (forall i, i < 3 -> d_p (d 0%R) i = u_p w i /\ forall j, j < 3 -> d_R (d 0%R) i j = u_R w i j) -> (forall i, i < 6 -> d_v (d 0%R) i = 0%R) ->
  forall t, (0 <= t)%R -> (forall i, i < 3 -> d_p (d t) i = u_p w i /\ forall j, j < 3 -> d_R (d t) i j = u_R w i j) /\ (forall i, i < 6 -> d_v (d t) i = 0%R).
Proof. exact six_held. Qed.
Print Assumptions C95_six.
Theorem C95_two_frames : forall log3 name nv w d1 d2 y, reads9 log3 -> two_runs log3 name nv w d1 d2 y -> frame_moves nv d1 y -> frame_moves nv d2 y ->
  (forall i, i < 3 -> d_p (d1 0%R) i = d_p (d2 0%R) i /\ world_v (d1 0%R) i = world_v (d2 0%R) i) ->
  forall t, (0 <= t)%R -> forall i, i < 3 -> d_p (d1 t) i = d_p (d2 t) i /\ world_v (d1 t) i = world_v (d2 t) i.
Proof. exact two_held. Qed.
Print Assumptions C95_two_frames.
(** Off the placement: exponential return with positive gains, equal on the three axes when they
    act in the axes of the frame. *)
Theorem C95_point_returns : forall kp kd, (0 < kp)%R -> (0 < kd)%R -> exists c r, (0 < r)%R /\
  forall log3 name nv w d y i, reads9 log3 -> i < 3 -> point_runs log3 name nv w d y -> frame_moves nv d y ->
    (if u_local w then even_gains w kp kd else u_kp w i = kp /\ u_kd w i = kd) ->
    decays c r (fun t => d_p (d t) i - u_p w i)%R (fun t => world_v (d t) i).
Proof. exact point_returns. Qed.
Print Assumptions C95_point_returns.
Theorem C95_two_frames_return : forall kp kd, (0 < kp)%R -> (0 < kd)%R -> exists c r, (0 < r)%R /\
  forall log3 name nv w d1 d2 y i, reads9 log3 -> i < 3 -> two_runs log3 name nv w d1 d2 y -> frame_moves nv d1 y -> frame_moves nv d2 y -> fst w i = kp -> snd w i = kd ->
    decays c r (fun t => d_p (d1 t) i - d_p (d2 t) i)%R (fun t => world_v (d1 t) i - world_v (d2 t) i)%R.
Proof. exact two_returns. Qed.
Print Assumptions C95_two_frames_return.
Theorem C95_six_returns : forall kp kd kq kw m, (0 < kp -> 0 < kd -> 0 < kq -> 0 < kw -> 0 <= m < PI -> exists c r c' r', 0 < r /\ 0 < r' /\
  forall log3 name nv w d y, reads9 log3 -> principal log3 -> proper (u_R w) -> six_runs log3 name nv w d y -> frame_moves nv d y -> frame_spins nv d y ->
    even_gains w kp kd -> (forall i, (i < 3)%nat -> u_kp w (3 + i)%nat = kq /\ u_kd w (3 + i)%nat = kw) ->
    let A := fun t => d_R (d t) in let B := fun _ : R => u_R w in let still := fun (_ : R) (_ : nat) => 0 in
    (forall i, (i < 3)%nat -> decays c r (fun t => d_p (d t) i - u_p w i) (fun t => world_v (d t) i)) /\
    (kq * (apart A B 0 * apart A B 0) + speed2 (fun t => world_w (d t)) still 0 <= kq * (m * m) -> aligns c' r' m A B (fun t => world_w (d t)) still))%R.
Proof. exact six_returns. Qed.
Print Assumptions C95_six_returns.
(** With the gains of the constructor a moving contact keeps moving. *)
Theorem C95_default_drifts : forall log3 name nv w d y, reads9 log3 -> point_runs log3 name nv w d y -> frame_moves nv d y -> even_gains w 0 0 ->
  forall t, (0 <= t)%R -> forall i, i < 3 -> world_v (d t) i = world_v (d 0%R) i /\ d_p (d t) i = (d_p (d 0%R) i + t * world_v (d 0%R) i)%R.
Proof. exact point_drifts. Qed.
Print Assumptions C95_default_drifts.

(** Loops meeting the hypotheses: a point held under a turning frame, with any gains and axes; a
    6d contact held while another joint moves, with any gains; two frames that move together;
    contacts one metre or one radian off; a contact as constructed that slides. *)
Example C95_example_point : forall kp kd b,
  point_runs plain_log "point" 6 (mkWish kp kd id6 (fun _ => 0%R) b) sd sy /\ frame_moves 6 sd sy /\ (forall i, i < 3 -> d_p (sd 0%R) i = 0%R /\ d_v (sd 0%R) i = 0%R) /\
  (forall t, (0 <= t)%R -> d_v (sd t) 5 <> 0%R).
Proof. intros kp kd b. exact (turning_point plain_log kp kd b plain_reads9). Qed.
Example C95_example_six : forall kp kd,
  six_runs plain_log "six" 7 (mkWish kp kd id6 (fun _ => 0%R) true) (fun _ => rest7) free7 /\ frame_moves 7 (fun _ => rest7) free7 /\ frame_spins 7 (fun _ => rest7) free7.
Proof. intros kp kd. exact (resting_six plain_log kp kd plain_reads9 plain_principal). Qed.
Example C95_example_two_frames : forall kp kd,
  two_runs plain_log "two" 6 (kp, kd) fd fd fy /\ frame_moves 6 fd fy /\ (forall i, i < 3 -> world_v (fd 0%R) i = (-1)%R).
Proof. intros kp kd. exact (moving_two plain_log kp kd plain_reads9). Qed.
Example C95_example_point_returns : forall b,
  point_runs plain_log "point" 6 (mkWish (fun _ => 1%R) (fun _ => 2%R) id6 (fun _ => 0%R) b) fd fy /\ frame_moves 6 fd fy /\ (forall i, i < 3 -> d_p (fd 0%R) i = 1%R).
Proof. intros b. exact (returning_point plain_log b plain_reads9). Qed.
Example C95_example_two_frames_return :
  two_runs plain_log "two" 6 (fun _ => 1%R, fun _ => 2%R) fd (fun _ => zero_data) fy /\ frame_moves 6 fd fy /\ frame_moves 6 (fun _ => zero_data) fy /\ (forall i, i < 3 -> (d_p (fd 0%R) i - d_p zero_data i = 1)%R).
Proof. exact (returning_two plain_log plain_reads9). Qed.
Example C95_example_six_returns :
  six_runs plain_log "six" 6 (mkWish (fun _ => 1%R) (fun _ => 2%R) id6 (fun _ => 0%R) true) sd sy /\ frame_moves 6 sd sy /\ frame_spins 6 sd sy /\
  (let A := fun t => d_R (sd t) in let B := fun _ : R => id6 : rmat in apart A B 0 = 1 /\
   1 * (apart A B 0 * apart A B 0) + speed2 (fun t => world_w (sd t)) (fun _ _ => 0) 0 <= 1 * (3 / 2 * (3 / 2)) /\ 3 / 2 < PI)%R.
Proof. exact (returning_six plain_log plain_reads9 plain_principal). Qed.
Example C95_example_drifts : point_runs plain_log "point" 6 no_wish slide (fun _ _ => 0%R) /\ frame_moves 6 slide (fun _ _ => 0%R) /\ even_gains no_wish 0 0 /\
  (forall i, i < 3 -> world_v (slide 0%R) i = 1%R).
Proof. exact (sliding_point plain_log plain_reads9). Qed.
