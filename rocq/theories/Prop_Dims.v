(** Property C79: dim() of the tasks.  Only statements; the proofs are in TaskDims.v. *)
From Coq Require Import String List Arith Bool ZArith QArith Qround Reals Lia Lra.
From Verif Require Import Scalar Outcome Linalg Constraint FormPhysSpec RSum Masks MaskReal JointBounds JointSpec JointReal JointLimits JointViab JointTask JointPva
  SolverSpec JointMaskSize JointTasks JointTasksP JointRefute JointTasksR FrameTasks FrameTasksP ForceTasks ForceTasksR ForceCop TaskDims Prop_JointTasks.
Import ListNotations.
Open Scope nat_scope.

(** ** C79 dim() is the number of rows of the constraint *)
Theorem C79_joints : (forall dif name neu nqa nv na s, na <= nv -> nqa <= vlen neu -> tmade Rtrunc dif name neu nqa nv na s ->
    has_rows (t_c s) (post_dim Rtrunc s) /\ post_dim Rtrunc s = Z.of_nat (length (actives (t_mask s))) /\
    forall dv a, post_acc s dv = Some a -> Z.of_nat (vlen a) = post_dim Rtrunc s) /\
  (forall name na s, umade Rtrunc name na s -> has_rows (u_c s) (actb_dim Rtrunc s) /\ actb_dim Rtrunc s = Z.of_nat (length (actives (u_mask s)))) /\
  (forall name na s, emade Rtrunc name na s -> has_rows (e_c s) (acte_dim Rtrunc s) /\ acte_dim Rtrunc s = Z.of_nat (length (actives (e_mask s)))) /\
  (forall (K : num) name nv na (s : jb K), na <= nv -> jmade name nv na s -> has_rows (b_c s) (jb_dim s) /\ jb_dim s = Z.of_nat nv) /\
  (forall name nv na dt (s : rpva), na <= nv -> pmade all_joints name nv na dt s -> has_rows (p_c s) (pva_dim s) /\ pva_dim s = Z.of_nat na).
Proof.
  exact (conj (fun dif => dim_posture Rtrunc dif good_ones_R) (conj (dim_bounds Rtrunc good_ones_R) (conj (dim_actuation Rtrunc good_ones_R)
    (conj (@dim_joint_bounds) dim_posvelacc_all)))).
Qed.
Print Assumptions C79_joints.
Theorem C79_frames : forall (K : num) (toZ : K -> Z) log3 name nv,
  (forall s, se3_made toZ log3 name nv s -> has_rows (h_c (x_h s)) (se3_dim toZ s)) /\
  (forall s, tf_made toZ log3 name nv s -> has_rows (h_c (y_h s)) (tf_dim toZ s)) /\
  (forall s : comt K, com_made toZ name nv s -> has_rows (h_c (z_h s)) (com_dim toZ s)) /\
  (forall s : amt K, am_made name nv s -> has_rows (o_c s) (am_dim s)).
Proof. exact @dim_frames. Qed.
Print Assumptions C79_frames.
Theorem C79_selected : forall m : vec Rnum, mask01 m -> mask_dim Rtrunc m = Z.of_nat (length (ons (vlen m) m)).
Proof. exact dim_selected. Qed.
Print Assumptions C79_selected.
Theorem C79_forces : (forall (K : num) name cname (dt : K) s, reach cf_step six_rows (cf_new name cname dt) s -> has_rows (r_c s) (cf_dim s)) /\
  (forall (K : num) name (s : copt K), cop_made name s -> has_rows (q_c s) (cop_dim s)) /\
  (forall name nv dt g s, cap_made name nv dt g s -> has_rows (v_c s) (cap_dim s)).
Proof. exact (conj (@dim_force) (conj (@dim_cop) dim_capture)). Qed.
Print Assumptions C79_forces.
Theorem C79_posvelacc_refuted : forall name nv na dt (s : rpva) jk m q v, na <= nv -> pmade any_op name nv na dt s ->
  vlen m = na -> mask01 m -> na <= vlen q -> na <= vlen v ->
  exists s1 s2, rstep s (PMask jk m) = Ret s1 tt /\ rstep s1 (PCompute q v) = Ret s2 tt /\
    pva_dim s2 = Z.of_nat na /\ mrows (c_mat (p_c s2)) = length (actives m) /\ (has_rows (p_c s2) (pva_dim s2) <-> ones m).
Proof. exact dim_posvelacc. Qed.
Print Assumptions C79_posvelacc_refuted.
Theorem C79_rejected_refuted : forall dif name neu, vlen neu = 1 -> forall jk, exists (s s1 : post Rnum), tmade Rtrunc dif name neu 1 1 1 s /\
  post_step Rtrunc dif s (TMask jk (v1 2)) = Exc s1 /\ post_dim Rtrunc s = 1%Z /\ post_dim Rtrunc s1 = 2%Z /\ t_c s1 = t_c s.
Proof. exact dim_rejected. Qed.
Print Assumptions C79_rejected_refuted.
(** Posture of two joints with the first one masked out: one row. *)
Example C79_case : exists s, tmade Rtrunc dif2 "posture" (vzero 2) 2 2 2 s /\ post_dim Rtrunc s = 1%Z.
Proof.
  destruct (C41_case "posture") as (_ & s & M & E & _). exists s. split; [exact M|].
  destruct C79_joints as (H & _). destruct (H dif2 "posture"%string (vzero 2) 2 2 2 s) as (_ & -> & _); [lia|cbn; lia|exact M|].
  rewrite E. destruct C40_mask as [_ ->]. reflexivity.
Qed.
(** A frame task masked twice, and a centre-of-mass task. *)
Definition qmask (l : list Q) : vec Qnum := @mkVec Qnum (length l) (fun i => nth i l (0#1)).
Example C79_frame_case : exists s : se3t Qnum, @se3_made Qnum Qfloor (fun _ _ => (0#1)) "foot" 7 s /\ @se3_dim Qnum Qfloor s = 2%Z /\ mrows (c_mat (h_c (x_h s))) = 2.
Proof.
  destruct (@se3_new Qnum Qfloor (vzero 0) "foot" 7) as [s0|] eqn:E0; [|vm_compute in E0; discriminate].
  destruct (run (@se3_step Qnum Qfloor (fun _ _ => (0#1))) s0 [XMask (vzero 0) (qmask [1;0;0;0;0;0]%Q); XMask (vzero 0) (qmask [0;1;0;0;0;1]%Q)]) as [s|] eqn:E.
  - exists s. split; [exists (vzero 0), s0; split; [exact E0|exact (run_reach _ _ _ _ E)]|]. vm_compute in E0. injection E0 as <-. vm_compute in E. injection E as <-. vm_compute. auto.
  - exfalso. vm_compute in E0. injection E0 as <-. vm_compute in E. discriminate.
Qed.
