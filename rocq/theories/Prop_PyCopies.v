(** Constraints returned by the tasks in Python (C84). *)
From Coq Require Import String List Arith Bool ZArith Reals Lia Lra.
From Verif Require Import Scalar Outcome Linalg Constraint FormPhysSpec RSum Masks MaskReal JointBounds JointSpec JointReal JointLimits JointViab JointTask JointPva
  Check Solvers SolverSpec JointMaskSize JointTasks JointTasksP JointTasksR FrameTasks FrameTasksP ForceTasks ForceTasksR ForceCop TaskDims PyCopies.
Import ListNotations.
Open Scope nat_scope.

Theorem C84_joints : (forall dif name neu nqa nv na s, na <= nv -> nqa <= vlen neu -> tmade Rtrunc dif name neu nqa nv na s -> copied py_eq (t_c s)) /\
  (forall name na s, umade Rtrunc name na s -> copied py_ineq (u_c s)) /\
  (forall name na s, emade Rtrunc name na s -> copied py_eq (e_c s)) /\
  (forall (K : num) name nv na (s : jb K), na <= nv -> jmade name nv na s -> copied py_bound (b_c s)).
Proof. exact copies_joint. Qed.
Print Assumptions C84_joints.
Theorem C84_frames : forall (K : num) (toZ : K -> Z) log3 name nv,
  (forall s, se3_made toZ log3 name nv s -> copied py_eq (h_c (x_h s))) /\
  (forall s, tf_made toZ log3 name nv s -> copied py_eq (h_c (y_h s))) /\
  (forall s : comt K, com_made toZ name nv s -> copied py_eq (h_c (z_h s))) /\
  (forall s : amt K, am_made name nv s -> copied py_eq (o_c s)).
Proof. exact copies_frames. Qed.
Print Assumptions C84_frames.
Theorem C84_forces : (forall (K : num) name cname (dt : K) s, reach cf_step (fun _ _ => True) (cf_new name cname dt) s ->
    if mrows (c_mat (r_c s)) =? 6 then copied py_eq (r_c s) else py_eq (r_c s) = None) /\
  (forall (K : num) name (s : copt K), cop_made name s -> copied py_eq (q_c s)).
Proof. exact (conj copies_force copies_cop). Qed.
Print Assumptions C84_forces.
Theorem C84_posvelacc : forall name nv na dt (s s' : rpva) q v, na <= nv -> pmade steady name nv na dt s -> rstep s (PCompute q v) = Ret s' tt ->
  exists c', py_bound (p_c s') = Some c' /\ c_name c' = c_name (p_c s') /\ crows c' = Some na /\ ccols c' = Some na /\
    forall y, sat (p_c s') y <-> sat c' (fun i => y (nv - na + i)).
Proof. exact copy_pva. Qed.
Print Assumptions C84_posvelacc.
Theorem C84_posvelacc_fixed : forall name nv na dt (s s' : rpva) q v c', na <= nv -> pmade steady name nv na dt s -> rstep s (PCompute q v) = Ret s' tt ->
  py_bound (p_c s') = Some c' -> (cwf nv c' <-> na = nv) /\ (na = nv -> forall y, sat c' y <-> sat (p_c s') y).
Proof. exact copy_pva_fixed. Qed.
Print Assumptions C84_posvelacc_fixed.
Theorem C84_posvelacc_floating : forall name nv na dt (s s' : rpva) q v, na < nv -> pmade steady name nv na dt s -> rstep s (PCompute q v) = Ret s' tt ->
  exists c', py_bound (p_c s') = Some c' /\
    (forall x tol, vlen x = nv -> check rsqrt c' x tol = None) /\
    forall b dbg jk st w0 c0 w cl0 cl1 ans x, cwf nv c0 -> In (w, c') cl0 -> solve b dbg jk st [(w0, c0) :: cl0; cl1] ans x = Undef.
Proof. exact copy_pva_floating. Qed.
Print Assumptions C84_posvelacc_floating.
Theorem C84_posvelacc_mask : forall (K : num) sq toZ (s s1 s2 t : pva K) jk m q v, c_kind (p_c s) = CIneq ->
  pva_step sq toZ s (PMask jk m) = Ret s1 tt -> pva_step sq toZ s1 (PCompute q v) = Ret s2 tt -> pva_step sq toZ s (PCompute q v) = Ret t tt ->
  py_bound (p_c s2) = py_bound (p_c t) /\ py_bound (p_c t) <> None.
Proof. exact copy_pva_mask. Qed.
Print Assumptions C84_posvelacc_mask.

(** One actuated joint on a floating base, as constructed and computed once. *)
Lemma one_joint : exists jk (s s' : rpva), pmade steady "limits" 7 1 1 s /\ @pva_new Rnum Rtrunc jk "limits" 7 1 1%R = Some (Some s) /\
  rstep s (PCompute (vzero 7) (vzero 7)) = Ret s' tt /\ cwf 7 (p_c s') /\ c_kind (p_c s) = CIneq.
Proof.
  destruct (pva_new_ok (fun _ => 0) "limits" 7 1 1%R) as (s & E & I & _); [lia|lra|].
  destruct I as (I1 & _ & _ & _ & _ & _ & _ & _ & _ & _ & I11 & (F1 & F2 & _) & _).
  destruct (pva_compute_ok s (vzero 7) (vzero 7)) as (s' & E' & _ & _ & _ & _ & C4 & C5 & C6 & C7 & _); [rewrite I1; cbn; lia|rewrite I1; cbn; lia|].
  exists (fun _ => 0), s, s'. split; [|split; [exact E|split; [exact E'|split; [|exact I11]]]].
  - exists (fun _ => 0), s. split; [exact E|apply reach_init].
  - unfold cwf. rewrite C4, I11, C5, F1, F2, C6, C7, I1. auto.
Qed.
Theorem C84_posvelacc_refuted : exists name nv na dt (s s' : rpva) q v c', na <= nv /\ pmade steady name nv na dt s /\
  rstep s (PCompute q v) = Ret s' tt /\ cwf nv (p_c s') /\ py_bound (p_c s') = Some c' /\ ~ cwf nv c'.
Proof.
  destruct one_joint as (jk & s & s' & M & _ & E & W & _).
  destruct (copy_pva "limits" 7 1 1 s s' (vzero 7) (vzero 7)) as (c' & H & _); [lia|exact M|exact E|].
  destruct (copy_pva_fixed "limits" 7 1 1 s s' (vzero 7) (vzero 7) c') as [X _]; [lia|exact M|exact E|exact H|].
  exists "limits"%string, 7, 1, 1%R, s, s', (vzero 7), (vzero 7), c'. split; [lia|]. repeat (split; [assumption|]). rewrite X. lia.
Qed.
Print Assumptions C84_posvelacc_refuted.
(** The masked joint has no row in the task but a limit in the copy. *)
Theorem C84_mask_refuted : exists name nv na dt (s s1 s2 : rpva) jk m q v c', pmade steady name nv na dt s /\
  rstep s (PMask jk m) = Ret s1 tt /\ rstep s1 (PCompute q v) = Ret s2 tt /\ mrows (c_mat (p_c s2)) = 0 /\ py_bound (p_c s2) = Some c' /\ crows c' = Some 1.
Proof.
  destruct one_joint as (jk & s & t & M & E0 & E & _ & HK).
  assert (M' : pmade any_op "limits" 7 1 1%R s) by (exists jk, s; split; [exact E0|apply reach_init]).
  destruct (mask_sizes "limits" 7 1 1%R s (fun _ => 0) (vzero 1) (vzero 7) (vzero 7)) as (s1 & s2 & E1 & E2 & [S _] & _); try (cbn; lia); [exact M'| |].
  { intros i _. left. apply Reqb_true. reflexivity. }
  destruct (copy_pva "limits" 7 1 1 s t (vzero 7) (vzero 7)) as (c' & H & _ & Hr & _); [lia|exact M|exact E|].
  destruct (copy_pva_mask Rnum rsqrt Rtrunc s s1 s2 t (fun _ => 0) (vzero 1) (vzero 7) (vzero 7) HK E1 E2 E) as [X _].
  exists "limits"%string, 7, 1, 1%R, s, s1, s2, (fun _ => 0), (vzero 1), (vzero 7), (vzero 7), c'.
  split; [exact M|]. split; [exact E1|]. split; [exact E2|]. split; [|split; [rewrite X; exact H|exact Hr]].
  rewrite S. unfold actives. cbn [vlen vzero seq filter is_on vget]. 
  replace (is_on (@vzero Rnum 1) 0) with false; [reflexivity|]. symmetry. unfold is_on. cbn [vget vzero]. 
  replace (@neqb Rnum n0 n0) with true by (symmetry; apply Reqb_true; reflexivity). reflexivity.
Qed.
Print Assumptions C84_mask_refuted.
(** The other hypotheses are met: a joint bounds task, a centre-of-pressure task. *)
Example C84_case : (exists s : jb Rnum, jmade "b" 7 1 s /\ copied py_bound (b_c s)) /\ copied py_eq (q_c (@cop_new Rnum "cop")).
Proof.
  split.
  - destruct (@jb_new Rnum "b" 7 1 1%R) as [s|] eqn:E.
    + exists s. assert (M : jmade "b" 7 1 s) by (exists 1%R, s; split; [exact E|apply reach_init]). split; [exact M|].
      destruct C84_joints as (_ & _ & _ & H). apply (H Rnum "b"%string 7 1 s ltac:(lia) M).
    + unfold jb_new in E. replace (@nltb Rnum (@n0 Rnum) 1%R) with true in E by (symmetry; apply Rltb_true; cbn; lra). discriminate.
  - apply (proj2 C84_forces Rnum "cop"%string). apply reach_init.
Qed.
