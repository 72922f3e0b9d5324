(** Property C96: the capture point task in closed loop. *)
From Coq Require Import String List Arith Bool ZArith Reals Lia Lra.
From Verif Require Import Scalar Outcome Linalg Constraint FormPhysSpec RSum FrameTasks ForceTasks ForceTasksR CaptureLoop CaptureLoopR.
Open Scope nat_scope.

(** ** C96 capture point and centre of mass stay over the support *)
(** [capture_runs]: in every control period the task (any history, limits lo and hi after margins)
    is computed, the accelerations satisfy its constraint, and the centre of mass moves with them
    for the period dt. [capture g d i] is the capture point p + v / sqrt (g / height). *)
(** At constant height the capture point is inside from the first period on, wherever it starts. *)
Theorem C96_capture : forall name nv dt g lo hi z d y, (0 < g)%R -> (0 < dt)%R -> capture_runs name nv dt g lo hi z d y -> (forall k, z (S k) = z k) ->
  forall k i, i < 2 -> inside (lo i) (hi i) (capture g (d (S k)) i).
Proof. exact capture_stays. Qed.
Print Assumptions C96_capture.
(** For periods up to 2/w the centre of mass never leaves the limits, between the samples
    included, so the robot does not fall. *)
Theorem C96_com_inside : forall name nv dt g lo hi z d y, (0 < g)%R -> (0 < dt)%R -> capture_runs name nv dt g lo hi z d y -> (forall k, z (S k) = z k) ->
  forall i, i < 2 -> (frequency g (z 0%nat) * dt <= 2)%R -> inside (lo i) (hi i) (g_p (d 0) i) -> inside (lo i) (hi i) (capture g (d 0) i) ->
  forall k t, (0 <= t <= dt)%R -> inside (lo i) (hi i) (com_at nv (d k) (y k) i t).
Proof. exact com_stays. Qed.
Print Assumptions C96_com_inside.
(** From outside it approaches them geometrically. *)
Theorem C96_com_approaches : forall name nv dt g lo hi z d y, (0 < g)%R -> (0 < dt)%R -> capture_runs name nv dt g lo hi z d y -> (forall k, z (S k) = z k) ->
  forall i, i < 2 -> (frequency g (z 0%nat) * dt <= 2)%R ->
  forall k, (off (lo i) (hi i) (g_p (d (S k)) i) <= ratio (frequency g (z 0%nat)) dt ^ k * off (lo i) (hi i) (g_p (d 1%nat) i))%R.
Proof. exact com_approaches. Qed.
Print Assumptions C96_com_approaches.
Theorem C96_ratio : forall w dt, (0 < w)%R -> (0 < dt)%R -> (-1 < ratio w dt < 1)%R /\ (w * dt <= 2 -> 0 <= ratio w dt)%R.
Proof. exact (fun w dt Hw Hd => conj (ratio_lt w dt Hw Hd) (ratio_pos w dt Hw Hd)). Qed.
Print Assumptions C96_ratio.
Theorem C96_speed : forall name nv dt g lo hi z d y, (0 < g)%R -> (0 < dt)%R -> capture_runs name nv dt g lo hi z d y -> (forall k, z (S k) = z k) ->
  forall i k, i < 2 -> inside (lo i) (hi i) (g_p (d (S k)) i) -> (Rabs (g_v (d (S k)) i) <= frequency g (z 0%nat) * (hi i - lo i))%R.
Proof. exact com_speed. Qed.
Print Assumptions C96_speed.
(** Any period: bounded. *)
Theorem C96_bounded : forall name nv dt g lo hi z d y, (0 < g)%R -> (0 < dt)%R -> capture_runs name nv dt g lo hi z d y -> (forall k, z (S k) = z k) ->
  forall i k, i < 2 -> let c := ((lo i + hi i) / 2)%R in let r := ((hi i - lo i) / 2)%R in
  (Rabs (g_p (d (S k)) i - c) <= Rabs (ratio (frequency g (z 0%nat)) dt) ^ k * Rabs (g_p (d 1%nat) i - c) + r * Rmax 1 (frequency g (z 0%nat) * dt / 2))%R.
Proof. exact com_bounded. Qed.
Print Assumptions C96_bounded.
(** Neither hypothesis can be dropped: with a longer period the centre of mass leaves the limits,
    with a rising one the capture point does. *)
Theorem C96_long_period_refuted : exists (d : nat -> cdata Rnum) (y : nat -> nat -> R),
  capture_runs "cap" 3 4 1 (fun _ => (-1)%R) (fun _ => 1%R) (fun _ => 1%R) d y /\
  forall i, i < 2 -> inside (-1) 1 (g_p (d 0) i) /\ inside (-1) 1 (capture 1 (d 0) i) /\ (g_p (d 1%nat) i < -1)%R.
Proof. exact long_period_leaves. Qed.
Print Assumptions C96_long_period_refuted.
Theorem C96_height_refuted : exists (z : nat -> R) (d : nat -> cdata Rnum) (y : nat -> nat -> R),
  capture_runs "cap" 3 1 1 (fun _ => (-1)%R) (fun _ => 1%R) z d y /\
  forall i, i < 2 -> inside (-1) 1 (g_p (d 0) i) /\ inside (-1) 1 (capture 1 (d 0) i) /\ (1 < capture 1 (d 1%nat) i)%R.
Proof. exact rising_leaves. Qed.
Print Assumptions C96_height_refuted.
(** Loops meeting the hypotheses, from inside with a speed and from outside. *)
Example C96_case_inside : let d := fst (approach (1 / 2) (- (1 / 2)) (1 / 3) 1 (2 / 3)) in let y := snd (approach (1 / 2) (- (1 / 2)) (1 / 3) 1 (2 / 3)) in
  capture_runs "cap" 3 1 1 (fun _ => (-1)%R) (fun _ => 1%R) (fun _ => 1%R) d y /\ (frequency 1 1 * 1 <= 2)%R /\
  forall i, i < 2 -> inside (-1) 1 (g_p (d 0) i) /\ inside (-1) 1 (capture 1 (d 0) i) /\ g_v (d 0) i = (1 / 2)%R.
Proof. exact inside_loop. Qed.
Example C96_case_outside : let d := fst (approach 1 2 (1 / 3) 1 (2 / 3)) in let y := snd (approach 1 2 (1 / 3) 1 (2 / 3)) in
  capture_runs "cap" 3 1 1 (fun _ => (-1)%R) (fun _ => 1%R) (fun _ => 1%R) d y /\ (frequency 1 1 * 1 <= 2)%R /\
  forall i, i < 2 -> off (-1) 1 (g_p (d 1) i) = (2 / 3)%R.
Proof. exact outside_loop. Qed.
