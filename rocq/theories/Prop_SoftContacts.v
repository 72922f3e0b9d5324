(** Property C110: a formulation whose contacts and tasks are soft can always be solved.  Only
    statements; the proofs are in SoftContacts.v, SoftCalls.v and SoftContactsR.v. *)
From Coq Require Import String List Arith Bool QArith Reals Lia Lra.
From Verif Require Import Scalar Outcome Linalg Constraint Formulation FormSpec FormDataSpec FormPhysSpec FormMain FormCheck FormWitness SoftTasks SoftPlan SoftOrderR SoftContacts SoftCalls SoftContactsR.
From Verif Require Import Contacts ContactSpec ContactProofs ContactReal.
From Verif Require RobotModelR.
Import ListNotations.
Open Scope string_scope.
Open Scope list_scope.
Open Scope nat_scope.

(** After any history of well-formed calls that put contacts, motion tasks and force tasks at level
    1, once computeProblemData returned: if the mass matrix is positive definite, every contact
    admits some force and the torques [tau] meet the hard actuation tasks, then some motion that
    respects all the hard constraints uses exactly the torques [tau], and the solver can answer. *)
Theorem C110_soft : forall dbg nv na (M0 : mat Rnum) H0 asc s t e s' tau, FormMain.robot_ok nv M0 H0 ->
  reach (step dbg) (soft_use dbg asc) (init nv na M0 H0) s -> assoc_good dbg asc s (Formulation.OCompute t e) -> step dbg s (Formulation.OCompute t e) = Ret s' OutUnit ->
  RobotModelR.posdef nv (mget (e_mass e)) -> forces_exist s' e -> torque_exists s' e tau ->
  (exists z, physical s' e z /\ forall q, q < nv - f_nu s' -> needed_torque s' e z (f_nu s' + q) = tau q) /\
  exists y, planned dbg nv na M0 H0 asc e s' reg8 y.
Proof. exact soft_possible. Qed.
Print Assumptions C110_soft.
(** Which contacts admit a force. *)
Theorem C110_pyramid : forall k dbg name (s : rcont), k <> K2 -> made rsq k dbg name s -> (/ 10 ^ 10 <= dot (vget (k_n s)) (vget (k_n s)))%R ->
  (0 < k_mu s)%R -> (2 * k_mu s * k_fmax s <= big)%R -> (k_fmin s <= k_fmax s)%R -> (0 <= k_fmax s)%R -> exists f, sat (k_ineq s) f.
Proof. exact pyramid_force. Qed.
Print Assumptions C110_pyramid.
Theorem C110_two_frames : forall dbg name (s : rcont), made rsq K2 dbg name s -> (k_fmin s <= k_fmax s)%R -> exists f, sat (k_ineq s) f.
Proof. exact box_force. Qed.
Print Assumptions C110_two_frames.
(** The same formulation with the contact at level 0: the conditions on mass, forces and torques
    hold, the call returns, and nothing respects the hard constraints. *)
Theorem C110_hard_refuted : forall dbg, exists l s t (e : env Rnum) s' tau, Forall but_contact l /\ run (step dbg) (init 3 2 (mzero 3 3) (vzero 3)) l = Some s /\
  reach (step dbg) (assoc_good dbg asc) (init 3 2 (mzero 3 3) (vzero 3)) s /\ assoc_good dbg asc s (Formulation.OCompute t e) /\ step dbg s (Formulation.OCompute t e) = Ret s' OutUnit /\
  RobotModelR.posdef 3 (mget (e_mass e)) /\ forces_exist s' e /\ torque_exists s' e tau /\ forall z, ~ physical s' e z.
Proof.
  intros dbg. assert (I0 : In 0 [0; 1]) by (left; reflexivity). destruct (ask3 dbg 0 I0) as (A & B & C).
  exists (scene3 0), (built dbg (scene3 0)), (@t0 Rnum), env3, (go env3 dbg (scene3 0)), (fun _ => 7%R). destruct (calls_3 dbg) as [X Y].
  split; [exact Y|]. split; [exact X|]. split; [exact A|]. split; [exact B|]. split; [exact C|].
  split; [apply mass_3|]. split; [exact (forces_3 _ _ (lists_3 dbg 0 I0))|]. split; [exact (torques_3 _ _ (lists_3 dbg 0 I0))|].
  intros z. apply hard_3, lists_3, I0.
Qed.
Print Assumptions C110_hard_refuted.
(** With the contact at level 1 the hypotheses of C110_soft hold, with a hard torque bound. *)
Example C110_case : forall dbg, reach (step dbg) (soft_use dbg asc) (init 3 2 (mzero 3 3) (vzero 3)) (built dbg (scene3 1)) /\
  step dbg (built dbg (scene3 1)) (Formulation.OCompute (@t0 Rnum) env3) = Ret (go env3 dbg (scene3 1)) OutUnit /\
  RobotModelR.posdef 3 (mget (e_mass env3)) /\ forces_exist (go env3 dbg (scene3 1)) env3 /\ torque_exists (go env3 dbg (scene3 1)) env3 (fun _ => 7%R) /\
  exists y, planned dbg 3 2 (mzero 3 3) (vzero 3) asc env3 (go env3 dbg (scene3 1)) reg8 y.
Proof.
  intros dbg. assert (I1 : In 1 [0; 1]) by (right; left; reflexivity). destruct (ask3 dbg 1 I1) as (A & B & C).
  assert (F := forces_3 _ _ (lists_3 dbg 1 I1)). assert (T := torques_3 _ _ (lists_3 dbg 1 I1)).
  split; [apply soft3|]. split; [exact C|]. split; [apply mass_3|]. split; [exact F|]. split; [exact T|].
  apply (C110_soft dbg 3 2 (mzero 3 3) (vzero 3) asc _ _ _ _ _ ltac:(repeat split) (soft3 dbg) B C mass_3 F T).
Qed.
