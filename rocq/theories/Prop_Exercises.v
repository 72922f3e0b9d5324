(** Properties C104 and C105: what the walking exercises record.  Only statements; the
    proofs are in PressureRecord.v and FootReport.v.
    [points s i]: contact point i of the foot in its frame; [up]: the vertical;
    [centre_of_pressure] (ContactSpec.v): the point of the sole about which the forces
    have no horizontal moment; [resultant]: sum of the point forces.
    [feet]: the feet in contact; [load]: vertical force on a foot; [level]: its frame is
    turned about the vertical only; [mean_origin]: mean of the origins of the feet
    weighted with the loads; [true_cop] (C64): the point that TaskCopEquality controls.
    [saw nv m idx d0 d x dv]: the task computed with the state of the data d, and
    J dv + drift is the acceleration of the frame in the motion. *)
From Coq Require Import String List Arith Bool QArith Reals Qreals Lia Lra.
From Verif Require Import Scalar Outcome Linalg Constraint FormPhysSpec FormSpec RSum Contacts ContactSpec ContactProofs ContactReal ContactRefute MaskReal RobotModelR PressureRecord FootReport.
From Verif Require RobotModel FrameTasks FrameTasksP FrameTasksR FrameRefute.
From Verif Require Import ForceTasks ForceCop.
Import ListNotations.
Open Scope list_scope.
Open Scope nat_scope.

(** ** C104 the recorded total centre of pressure *)
Theorem C104_foot : forall dbg name (s : rcont) (f : vec Rnum) h, made rsq K6 dbg name s -> vlen f = 12 -> (forall i, i < 4 -> points s i 2 = h) ->
  exists w r, foot_record (Some (k_gen s, f)) = Some (w, r) /\ (forall a, a < 3 -> vget w a = resultant 4 (vget f) a) /\
    ((/ 1000 < resultant 4 (vget f) 2)%R -> forall c, centre_of_pressure 4 (points s) up h (vget f) c ->
       fst r = (h * (resultant 4 (vget f) 0 / resultant 4 (vget f) 2) - c 0%nat)%R /\ snd r = (h * (resultant 4 (vget f) 1 / resultant 4 (vget f) 2) - c 1%nat)%R) /\
    ((resultant 4 (vget f) 2 <= / 1000)%R -> r = (0%R, 0%R)).
Proof. exact foot_recorded. Qed.
Print Assumptions C104_foot.
Theorem C104_total : forall dbg name (s : rcont) h (y : nat -> R) (cL cR : rcon) (onL onR : bool), made rsq K6 dbg name s -> (forall i, i < 4 -> points s i 2 = h) -> mcols (k_pts s) = 4 ->
  (forall c, In c (feet onL onR cL cR) -> w_pts c = k_pts s /\ level c /\ (/ 1000 < load y c)%R) -> feet onL onR cL cR <> [] ->
  exists t, total_record (placed cL) (placed cR) (given s y onL cL) (given s y onR cR) = Some t /\
    (0 < true_normal_total (feet onL onR cL cR) up y)%R /\
    forall i, i < 2 -> t i = (2 * mean_origin (feet onL onR cL cR) y i - true_cop (feet onL onR cL cR) up y i +
      h * (total_force (feet onL onR cL cR) y i / true_normal_total (feet onL onR cL cR) up y))%R.
Proof. exact total_recorded. Qed.
Print Assumptions C104_total.
(** With the CoP task satisfied. *)
Theorem C104_reference : forall dbg name (s : rcont) (y : nat -> R) (cL cR : rcon) (onL onR : bool) cname jk (q : copt Rnum),
  made rsq K6 dbg name s -> (forall i, i < 4 -> points s i 2 = 0%R) -> mcols (k_pts s) = 4 ->
  (forall c, In c (feet onL onR cL cR) -> w_pts c = k_pts s /\ level c /\ (/ 1000 < load y c)%R) -> feet onL onR cL cR <> [] ->
  cop_made cname q -> (forall k, k < 3 -> q_n q k = up k) -> three_per_point (feet onL onR cL cR) -> tiles 0 (map cblock (feet onL onR cL cR)) (nforces (feet onL onR cL cR)) ->
  exists q' t, cop_step q (QCompute jk (feet onL onR cL cR)) = Ret q' tt /\ total_record (placed cL) (placed cR) (given s y onL cL) (given s y onR cR) = Some t /\
    (sat (q_c q') y -> forall i, i < 2 -> t i = (2 * mean_origin (feet onL onR cL cR) y i - q_ref q i)%R).
Proof. exact total_mirrored. Qed.
Print Assumptions C104_reference.
(** The stated property is false: the total is not the reference of a satisfied task. *)
Theorem C104_reference_refuted : forall dbg name cname jk, exists (s : rcont) (y : nat -> R) q q' t, made_valid rsq K6 dbg name s /\ sat (k_ineq s) y /\ cop_made cname q /\
  cop_step q (QCompute jk (feet true false toe_foot toe_foot)) = Ret q' tt /\ sat (q_c q') y /\ q_ref q 0 = (/ 10)%R /\
  total_record (placed toe_foot) (placed toe_foot) (given s y true toe_foot) (given s y false toe_foot) = Some t /\ t 0%nat = (- / 10)%R.
Proof. exact total_refuted. Qed.
Print Assumptions C104_reference_refuted.
(** A foot of Talos, and two feet with different loads, the second one turned and
    displaced. *)
Definition other_foot : rcon := @mkCcon Rnum 12 12 talos_sole FrameRefute.Rz (fun i => if i =? 1 then (/ 5)%R else 0%R).
Definition two_forces : nat -> R := fun k => match k with 2 | 5 | 8 | 11 => 50%R | 14 | 17 => 40%R | 18 => 3%R | _ => 0%R end.
Example C104_case : (forall dbg name, exists s : rcont, made_valid rsq K6 dbg name s /\ k_pts s = talos_sole /\ mcols (k_pts s) = 4 /\ forall i, points s i 2 = 0%R) /\
  level toe_foot /\ level other_foot /\ load two_forces toe_foot = 200%R /\ load two_forces other_foot = 80%R /\
  three_per_point (feet true true toe_foot other_foot) /\ tiles 0 (map cblock (feet true true toe_foot other_foot)) (nforces (feet true true toe_foot other_foot)) /\
  mean_origin (feet true true toe_foot other_foot) two_forces 1 = (2 / 35)%R.
Proof.
  split; [intros dbg name; destruct (talos_foot dbg name) as (s & V & P & _); exists s; split; [exact V|]; split; [exact P|]; rewrite P; split; [reflexivity|]; intros i; unfold points; rewrite P; reflexivity|].
  split; [exact toe_level|]. split; [repeat split|]. assert (A : load two_forces toe_foot = 200%R) by (unfold load, resultant, at_point, slice, two_forces; cbn; lra).
  assert (B : load two_forces other_foot = 80%R) by (unfold load, resultant, at_point, slice, two_forces; cbn; lra).
  split; [exact A|]. split; [exact B|]. split; [intros c [<-|[<-|[]]]; reflexivity|]. split; [cbn; auto|].
  unfold mean_origin, feet, lsum. cbn [app map fold_right]. rewrite A, B. cbn. field.
Qed.

(** ** C105 recorded foot velocities and accelerations *)
Theorem C105_report : forall log3 name nv (s : FrameTasks.se3t Rnum) x s' dv z (P : RobotModel.se3 Rnum) m d d0 idx j t,
  @FrameTasksP.se3_made Rnum Rtrunc log3 name nv s -> FrameTasks.x_mask s = FrameRefute.ones_n 6 ->
  @FrameTasks.se3_step Rnum Rtrunc log3 s (FrameTasks.XCompute x) = Ret s' tt -> vlen dv = nv ->
  moving z -> tracks d j z -> attached m idx j P -> saw nv m idx d0 (d t) x dv ->
  exists r F, foot_report m d0 idx (FrameTasks.x_h s') dv = Ret tt r /\ RobotModel.frame_position m (d t) idx = Ret tt F /\ vlen (e_acc r) = 3 /\
    (forall i, i < 3 -> e_pos r i = position_of m idx (d t) i) /\
    exists v : R -> nat -> R, (forall u i, i < 3 -> derivable_pt_lim (fun u => position_of m idx (d u) i) u (v u i)) /\
      (forall i, i < 3 -> v t i = mv (RobotModel.p_R F) (e_vel r) i) /\
      forall i, i < 3 -> derivable_pt_lim (fun u => v u i) t (if FrameTasks.x_local s then mv (RobotModel.p_R F) (vget (e_acc r)) i else vget (e_acc r) i).
Proof. exact foot_reported. Qed.
Print Assumptions C105_report.
Theorem C105_velocity : forall log3 name nv (s : FrameTasks.se3t Rnum) x s' dv z (P : RobotModel.se3 Rnum) m d d0 idx j t r F,
  @FrameTasksP.se3_made Rnum Rtrunc log3 name nv s -> FrameTasks.x_mask s = FrameRefute.ones_n 6 ->
  @FrameTasks.se3_step Rnum Rtrunc log3 s (FrameTasks.XCompute x) = Ret s' tt -> vlen dv = nv ->
  moving z -> tracks d j z -> attached m idx j P -> saw nv m idx d0 (d t) x dv ->
  foot_report m d0 idx (FrameTasks.x_h s') dv = Ret tt r -> RobotModel.frame_position m (d t) idx = Ret tt F ->
  ((forall i, i < 3 -> derivable_pt_lim (fun u => position_of m idx (d u) i) t (e_vel r i)) <-> forall i, i < 3 -> mv (RobotModel.p_R F) (e_vel r) i = e_vel r i).
Proof. exact velocity_kept. Qed.
Print Assumptions C105_velocity.
(** The stated property is false for a foot that has turned by a quarter. *)
Theorem C105_refuted : forall log3 name, exists s x s' r, @FrameTasksP.se3_made Rnum Rtrunc log3 name 1 s /\ FrameTasks.x_local s = true /\ FrameTasks.x_mask s = FrameRefute.ones_n 6 /\
  @FrameTasks.se3_step Rnum Rtrunc log3 s (FrameTasks.XCompute x) = Ret s' tt /\ saw 1 (one_frame ex_place) 0 (joint_data turning (PI / 2)) (joint_data turning (PI / 2)) x (@vzero Rnum 1) /\
  foot_report (one_frame ex_place) (joint_data turning (PI / 2)) 0 (FrameTasks.x_h s') (@vzero Rnum 1) = Ret tt r /\
  (derivable_pt_lim (fun u => position_of (one_frame ex_place) 0 (joint_data turning u) 0) (PI / 2) (-1)%R /\ e_vel r 0 = 0%R /\ e_vel r 1 = 1%R) /\
  exists v, (forall u, derivable_pt_lim (fun u => position_of (one_frame ex_place) 0 (joint_data turning u) 0) u (v u)) /\ derivable_pt_lim v (PI / 2) 0%R /\ vget (e_acc r) 0 = (-1)%R.
Proof. exact velocity_refuted. Qed.
Print Assumptions C105_refuted.
Example C105_case : moving turning /\ tracks (joint_data turning) 0 turning /\ attached (one_frame ex_place) 0 0 ex_place /\
  (forall t, saw 1 (one_frame ex_place) 0 (joint_data turning t) (joint_data turning t) (ring_data t) (@vzero Rnum 1)) /\
  forall log3 name, exists s, @FrameTasksP.se3_made Rnum Rtrunc log3 name 1 s /\ FrameTasks.x_mask s = FrameRefute.ones_n 6 /\ FrameTasks.x_local s = true.
Proof. split; [exact turning_moves|]. split; [apply joint_tracks|]. split; [exact ex_attached|]. split; [exact ring_saw|exact ring_task]. Qed.
