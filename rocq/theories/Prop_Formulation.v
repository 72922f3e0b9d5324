(** Properties C01-C20 and C54: InverseDynamicsFormulationAccForce over every
    history of calls from the constructor.  Only statements; the proofs are in the
    Form*.v files.  [dbg] says whether assert() is active; [init nv na M0 H0] is the
    constructor for a robot with nv velocities, na of them actuated. *)
From Coq Require Import String List Arith Bool ZArith QArith Lia Permutation Reals Lra.
From Verif Require Import Scalar Outcome Linalg Constraint Formulation ListUtil FormSpec FormInv FormOps FormSafe2 FormDataSpec FormPhysSpec FormDecode FormTrans FormMain FormCheck FormWitness FormRefute.
Import ListNotations.
Open Scope string_scope.
Open Scope list_scope.
Open Scope nat_scope.

(** ** C01 nEq and nIn *)
Theorem C01_counters : forall (K : num) dbg nv na (M0 : mat K) H0 s,
  reach (step dbg) (fun s o => names_ok s o /\ no_hard_force_removal s o) (init nv na M0 H0) s ->
  nEq s = Z.of_nat (hard_eq_rows s) /\ nIn s = Z.of_nat (hard_in_rows s).
Proof. exact (@counters). Qed.
Print Assumptions C01_counters.
Theorem C01_counters_refuted : forall dbg, exists s,
  reach (step dbg) (good dbg) sQ s /\ nEq s <> Z.of_nat (hard_eq_rows s).
Proof. exact counters_refuted. Qed.
Print Assumptions C01_counters_refuted.
Example C01_case : forall dbg, exists s,
  reach (step dbg) (fun s o => names_ok s o /\ no_hard_force_removal s o) (@s0 Qnum) s /\
  nEq s = 3%Z /\ nIn s = 5%Z.
Proof.
  intros dbg. exists (built dbg detour). split; [exact (detour_counted dbg)|split; destruct dbg; vm_compute; reflexivity].
Qed.

(** ** C02 every matrix has nVar columns *)
Theorem C02_all_columns : forall (K : num) dbg nv na (M0 : mat K) H0 s,
  reach (step dbg) any (init nv na M0 H0) s ->
  nVar s = nv + sum_nat (map snd (slots s)) /\
  forall lvl en, In lvl (hqp s) -> In en lvl -> exists c, snd en = Some c /\ mcols (c_mat c) = nVar s.
Proof. exact (@all_columns). Qed.
Print Assumptions C02_all_columns.
Example C02_case : forall dbg, exists s, reach (step dbg) any (@s0 Qnum) s /\
  nVar s = 5 /\ map (@List.length _) (hqp s) = [4; 3].
Proof.
  intros dbg. exists (built dbg build). split; [exact (build_any dbg Q_checks)|split; destruct dbg; vm_compute; reflexivity].
Qed.

(** ** C03 contact force slots *)
Theorem C03_slots_tile : forall (K : num) dbg nv na (M0 : mat K) H0 s,
  reach (step dbg) any (init nv na M0 H0) s ->
  tiles 0 (slots s) (f_k s) /\ nVar s = nv + f_k s /\
  forall o s', after (step dbg s o) = Some s' -> order_step s o s'.
Proof. exact (@slots_tile). Qed.
Print Assumptions C03_slots_tile.
Example C03_case : forall dbg, exists s, reach (step dbg) (good dbg) sQ s /\ slots s = [(0, 2); (2, 1)].
Proof.
  intros dbg. exists (endQ dbg two_leaving). split; [|destruct dbg; vm_compute; reflexivity].
  apply endQ_good; [repeat constructor; exact one_env_uniform|destruct dbg; vm_compute; reflexivity].
Qed.

(** ** C04 adding then removing a task *)
Theorem C04_add_remove_task : forall (K : num) dbg nv na (M0 : mat K) H0 s o n s1 r,
  reach (step dbg) named (init nv na M0 H0) s -> removable_task o n -> ~ In n (hqp_names s) ->
  step dbg s o = Ret s1 r ->
  exists s2, step dbg s1 (ORemTask n) = Ret s2 (OutBool true) /\ same_problem s s2 /\
    f_contacts s2 = f_contacts s /\ f_motions s2 = f_motions s /\ f_forces s2 = f_forces s /\
    f_acts s2 = f_acts s /\ f_meas s2 = f_meas s.
Proof. exact (@add_remove_task). Qed.
Print Assumptions C04_add_remove_task.
Theorem C04_hard_force_refuted : forall dbg, exists s1 s2,
  step dbg sQ (@OAddForce Qnum 0 "f" CEq 1 1%Q 0 0%Q) = Ret s1 (OutBool true) /\
  step dbg s1 (ORemTask "f") = Ret s2 (OutBool true) /\ nEq s2 <> nEq sQ.
Proof. exact add_remove_force_refuted. Qed.
Print Assumptions C04_hard_force_refuted.
Example C04_case : forall dbg, exists s o s1, reach (step dbg) named (@s0 Qnum) s /\ removable_task o "posture" /\
  ~ In "posture" (hqp_names s) /\ step dbg s o = Ret s1 (OutBool true).
Proof.
  intros dbg. exists (built dbg build), (@OAddMotion Qnum 7 "posture" CEq 2 1%Q 0 0%Q).
  exists (end_of dbg (built dbg build) (@OAddMotion Qnum 7 "posture" CEq 2 1%Q 0 0%Q)).
  split; [exact (build_named dbg Q_checks)|]. split; [reflexivity|].
  split; [apply inb_ok; destruct dbg; vm_compute; reflexivity|apply ret_bool; destruct dbg; vm_compute; reflexivity].
Qed.

(** ** C05 adding then removing a contact *)
Theorem C05_add_remove_contact : forall (K : num) dbg nv na (M0 : mat K) H0 s (o : nat) (x : cobj K) (wr wm : K) lvl s1 r (d : K),
  robot_ok nv M0 H0 -> reach (step dbg) (good dbg) (init nv na M0 H0) s ->
  nth_error (f_objs s) o = Some x -> ~ In (co_name x) (contact_names s) -> (n0 <? d)%num = false ->
  step dbg s (OAddContact o wr wm lvl) = Ret s1 r ->
  exists s2, step dbg s1 (ORemContact (co_name x) d) = Ret s2 (OutBool true) /\
    hqp_shapes s2 = hqp_shapes s /\ nVar s2 = nVar s /\ nEq s2 = nEq s /\ nIn s2 = nIn s /\
    f_contacts s2 = f_contacts s /\ f_objs s2 = f_objs s /\ f_motions s2 = f_motions s /\
    f_forces s2 = f_forces s /\ f_acts s2 = f_acts s /\ f_meas s2 = f_meas s.
Proof. exact (@add_remove_contact_history). Qed.
Print Assumptions C05_add_remove_contact.
Example C05_case : forall dbg, exists s s1, robot_ok 3 (@mzero Qnum 3 3) (vzero 3) /\ reach (step dbg) (good dbg) (@s0 Qnum) s /\
  nth_error (f_objs s) 1 = Some hand /\ ~ In "hand" (contact_names s) /\
  step dbg s (@OAddContact Qnum 1 1%Q 1%Q 0) = Ret s1 (OutBool true).
Proof.
  intros dbg. exists (built dbg build), (end_of dbg (built dbg build) (@OAddContact Qnum 1 1%Q 1%Q 0)).
  split; [repeat split|]. split; [exact (build_good dbg Q_checks)|].
  split; [destruct dbg; vm_compute; reflexivity|].
  split; [apply inb_ok; destruct dbg; vm_compute; reflexivity|apply ret_bool; destruct dbg; vm_compute; reflexivity].
Qed.

(** ** C06 what a removal changes *)
Theorem C06_removal_frame : forall (K : num) dbg nv na (M0 : mat K) H0 s n s' r,
  reach (step dbg) any (init nv na M0 H0) s -> step dbg s (ORemTask n) = Ret s' r ->
  (absent_from 0 n (hqp s) /\ hqp s' = hqp s \/
   exists i j, first_at 0 n (hqp s) i j /\ hqp s' = del_at (hqp s) i j) /\
  nVar s' = nVar s /\ slots s' = slots s /\ f_meas s' = f_meas s /\ f_trans s' = f_trans s.
Proof. exact (@removal_frame). Qed.
Print Assumptions C06_removal_frame.
Theorem C06_removal_result : forall (K : num) dbg nv na (M0 : mat K) H0 s n s' b,
  reach (step dbg) named (init nv na M0 H0) s -> ~ reserved n -> step dbg s (ORemTask n) = Ret s' (OutBool b) ->
  (b = true <-> In n (hqp_names s)).
Proof. exact (@removal_result). Qed.
Print Assumptions C06_removal_result.
Theorem C06_internal_name_refuted : forall dbg, exists s',
  step dbg sQ (ORemTask "base-dynamics") = Ret s' (OutBool false) /\
  hqp_names sQ = ["base-dynamics"] /\ hqp_names s' = [].
Proof. exact remove_task_refuted. Qed.
Print Assumptions C06_internal_name_refuted.
Example C06_case : forall dbg, exists s s', reach (step dbg) named (@s0 Qnum) s /\ ~ reserved "com" /\
  step dbg s (ORemTask "com") = Ret s' (OutBool true).
Proof.
  intros dbg. exists (built dbg build), (end_of dbg (built dbg build) (ORemTask "com")).
  split; [exact (build_named dbg Q_checks)|]. split; [apply reservedb_ok; reflexivity|].
  apply ret_bool; destruct dbg; vm_compute; reflexivity.
Qed.

(** ** C07 updateTaskWeight *)
Theorem C07_task_weight : forall (K : num) dbg nv na (M0 : mat K) H0 s n w s' b,
  reach (step dbg) any (init nv na M0 H0) s -> step dbg s (OUpdTask n w) = Ret s' (OutBool b) ->
  b = false /\ absent_from 1 n (hqp s) /\ s' = s \/
  b = true /\ exists i j l w0 c, first_at 1 n (hqp s) i j /\
     nth_error (hqp s) i = Some l /\ nth_error l j = Some (w0, c) /\
     hqp s' = put_at (hqp s) i j (w, c) /\ s' = w_hqp s (f_hqp s').
Proof. exact (@task_weight). Qed.
Print Assumptions C07_task_weight.
Example C07_case : forall dbg, exists s s1 s2, reach (step dbg) any (@s0 Qnum) s /\
  step dbg s (@OUpdTask Qnum "com" 4%Q) = Ret s1 (OutBool true) /\
  step dbg s (@OUpdTask Qnum "tau" 4%Q) = Ret s2 (OutBool false).
Proof.
  intros dbg. exists (built dbg build), (end_of dbg (built dbg build) (@OUpdTask Qnum "com" 4%Q)),
    (end_of dbg (built dbg build) (@OUpdTask Qnum "tau" 4%Q)).
  split; [exact (build_any dbg Q_checks)|].
  split; apply ret_bool; destruct dbg; vm_compute; reflexivity.
Qed.

(** ** C08 updateRigidContactWeights *)
Theorem C08_contact_weights : forall (K : num) dbg nv na (M0 : mat K) H0 s n wf wm s' b,
  reach (step dbg) named (init nv na M0 H0) s -> (wm <? n0)%num = negb (n0 <=? wm)%num ->
  step dbg s (OUpdContact n wf wm) = Ret s' (OutBool b) ->
  hqp s' = reweight_soft n wf wm (hqp s) /\ s' = w_hqp s (f_hqp s') /\
  (b = true <-> soft_has (n ++ "_force_reg_task") (hqp s) /\
                (soft_has (n ++ "_motion_task") (hqp s) \/ (wm <? n0)%num = true)).
Proof. exact (@contact_weights). Qed.
Print Assumptions C08_contact_weights.
Theorem C08_result_refuted : forall dbg, exists s s',
  reach (step dbg) (good dbg) sQ s /\ step dbg s (@OUpdContact Qnum "foot" 5%Q 7%Q) = Ret s' (OutBool false) /\
  map fst (nth 1 (hqp s) []) = [1%Q] /\ map fst (nth 1 (hqp s') []) = [5%Q].
Proof. exact contact_weights_refuted. Qed.
Print Assumptions C08_result_refuted.
Example C08_case : forall dbg, exists s s', reach (step dbg) named (@s0 Qnum) s /\
  step dbg s (@OUpdContact Qnum "foot" 5%Q (-1)%Q) = Ret s' (OutBool true).
Proof.
  intros dbg. exists (built dbg build), (end_of dbg (built dbg build) (@OUpdContact Qnum "foot" 5%Q (-1)%Q)).
  split; [exact (build_named dbg Q_checks)|]. apply ret_bool; destruct dbg; vm_compute; reflexivity.
Qed.

(** ** C09 priority levels *)
Theorem C09_level_stored : forall (K : num) dbg nv na (M0 : mat K) H0 s o w lvl n,
  reach (step dbg) any (init nv na M0 H0) s -> add_level o = Some (w, lvl, n) ->
  (lvl < 2 -> exists s' l c, step dbg s o = Ret s' (OutBool true) /\ nth_error (hqp s) lvl = Some l /\
                c_name c = n /\ hqp s' = lupd (hqp s) lvl (l ++ [(w, Some c)])) /\
  (2 <= lvl -> step dbg s o = Undef).
Proof. exact (@level_stored). Qed.
Print Assumptions C09_level_stored.
Theorem C09_contact_level : forall (K : num) dbg nv na (M0 : mat K) H0 s (o : nat) wr wm lvl,
  reach (step dbg) any (init nv na M0 H0) s -> 2 <= lvl -> step dbg s (OAddContact o wr wm lvl) = Undef.
Proof. exact (@contact_level). Qed.
Print Assumptions C09_contact_level.
Theorem C09_levels_refuted : forall dbg, exists o lvl, @add_level Qnum o = Some (1%Q, lvl, "com") /\ lvl = 2 /\
  step dbg sQ o = Undef.
Proof. exact priority_levels_refuted. Qed.
Print Assumptions C09_levels_refuted.
Example C09_case : forall dbg, exists s, reach (step dbg) any (@s0 Qnum) s /\
  @add_level Qnum (OAddMotion 7 "posture" CEq 2 1%Q 1 0%Q) = Some (1%Q, 1, "posture") /\ nVar s = 5.
Proof.
  intros dbg. exists (built dbg build). split; [exact (build_any dbg Q_checks)|].
  split; [reflexivity|destruct dbg; vm_compute; reflexivity].
Qed.

(** ** C10 the computed data *)
Theorem C10_computed_data : forall (K : num) dbg nv na (M0 : mat K) H0 asc s t e s',
  robot_ok nv M0 H0 -> reach (step dbg) (assoc_good dbg asc) (init nv na M0 H0) s ->
  assoc_good dbg asc s (OCompute t e) -> step dbg s (OCompute t e) = Ret s' OutUnit -> data_ok s' e.
Proof. exact (@computed_data). Qed.
Print Assumptions C10_computed_data.
Theorem C10_history_independent : forall (K : num) dbg nv na nv' na' (M0 : mat K) H0 (M0' : mat K) H0' asc asc' s t s' q u q' e,
  robot_ok nv M0 H0 -> robot_ok nv' M0' H0' ->
  reach (step dbg) (assoc_good dbg asc) (init nv na M0 H0) s -> assoc_good dbg asc s (OCompute t e) ->
  step dbg s (OCompute t e) = Ret s' OutUnit ->
  reach (step dbg) (assoc_good dbg asc') (init nv' na' M0' H0') q -> assoc_good dbg asc' q (OCompute u e) ->
  step dbg q (OCompute u e) = Ret q' OutUnit ->
  same_present s' q' -> hqp_eq (hqp s') (hqp q').
Proof. exact (@history_independent). Qed.
Print Assumptions C10_history_independent.
Example C10_case : forall dbg, exists s s' q q', robot_ok 3 (@mzero Rnum 3 3) (vzero 3) /\
  reach (step dbg) (assoc_good dbg asc) (@s0 Rnum) s /\ assoc_good dbg asc s (OCompute t0 one_env) /\
  step dbg s (OCompute t0 one_env) = Ret s' OutUnit /\
  reach (step dbg) (assoc_good dbg asc) (@s0 Rnum) q /\ assoc_good dbg asc q (OCompute t0 one_env) /\
  step dbg q (OCompute t0 one_env) = Ret q' OutUnit /\ same_present s' q' /\ f_heap s' <> f_heap q'.
Proof.
  intros dbg. destruct (build_scene R_checks dbg) as (A & B & C). destruct (detour_scene R_checks dbg) as (A' & B' & C').
  destruct (same_scene (K := Rnum) dbg) as [D E]. do 4 eexists.
  split; [repeat split|]. split; [exact A|]. split; [exact B|]. split; [exact C|]. split; [exact A'|].
  split; [exact B'|]. split; [exact C'|]. split; [exact D|exact E].
Qed.

(** ** C11 hard feasibility is physical feasibility *)
Theorem C11_feasible_physical : forall dbg nv na (M0 : mat Rnum) H0 asc s t e s',
  robot_ok nv M0 H0 -> reach (step dbg) (assoc_good dbg asc) (init nv na M0 H0) s ->
  assoc_good dbg asc s (OCompute t e) -> step dbg s (OCompute t e) = Ret s' OutUnit ->
  forall x, hard_feasible s' x <-> physical s' e x.
Proof. exact feasible_physical. Qed.
Print Assumptions C11_feasible_physical.
Example C11_case : forall dbg, exists s s', reach (step dbg) (assoc_good dbg asc) (@s0 Rnum) s /\
  assoc_good dbg asc s (OCompute t0 one_env) /\ step dbg s (OCompute t0 one_env) = Ret s' OutUnit /\
  (exists x, physical s' one_env x) /\ (exists x, ~ physical s' one_env x).
Proof.
  intros dbg. destruct (build_scene R_checks dbg) as (A & B & C). do 2 eexists.
  split; [exact A|]. split; [exact B|]. split; [exact C|].
  split; [exists stand; apply stand_physical|eexists; apply rest_not_physical].
Qed.

(** ** C12 decoded accelerations, forces and torques satisfy the dynamics *)
Theorem C12_decoded_dynamics : forall dbg nv na (M0 : mat Rnum) H0 asc s t e s',
  robot_ok nv M0 H0 -> reach (step dbg) (assoc_good dbg asc) (init nv na M0 H0) s ->
  assoc_good dbg asc s (OCompute t e) -> step dbg s (OCompute t e) = Ret s' OutUnit ->
  forall x s1 dv s2 f s3 tau, vlen x = nVar s' ->
  get s' GAcc x = Ret s1 dv -> get s1 GForce x = Ret s2 f -> get s2 GTau x = Ret s3 tau ->
  vlen dv = nv /\ (forall j, j < nv -> vget dv j = vget x j) /\
  vlen f = f_k s' /\ (forall r, r < f_k s' -> vget f r = vget x (nv + r)) /\
  vlen tau = nv - (nv - na) /\
  (forall q, q < nv - (nv - na) -> vget tau q = needed_torque s' e (vget x) ((nv - na) + q)) /\
  ((forall i, i < nv - na -> needed_torque s' e (vget x) i = 0%R) ->
   forall i, i < nv ->
     (@nsum Rnum nv (fun j => mget (e_mass e) i j * vget dv j)%R + vget (e_nle e) i - meas_torque s' e i
      = full_torque s' tau i + force_torque s' e f i)%R).
Proof. exact decoded_dynamics. Qed.
Print Assumptions C12_decoded_dynamics.

(** ** C13 actuation tasks constrain the decoded torques *)
Theorem C13_actuation_constraint : forall dbg nv na (M0 : mat Rnum) H0 asc s t e s',
  robot_ok nv M0 H0 -> reach (step dbg) (assoc_good dbg asc) (init nv na M0 H0) s ->
  assoc_good dbg asc s (OCompute t e) -> step dbg s (OCompute t e) = Ret s' OutUnit ->
  forall x s1 tau tk lvl en k, vlen x = nVar s' -> get s' GTau x = Ret s1 tau ->
  In tk (f_acts s') -> In lvl (hqp s') -> In en lvl -> snd en = Some k -> c_name k = tl_name tk ->
  (sat k (vget x) <-> sat (e_task e (tl_task tk)) (vget tau)).
Proof. exact actuation_constraint. Qed.
Print Assumptions C13_actuation_constraint.

(** ** C14, C15 the getters decode the given solution *)
Theorem C14_getters_decode : forall (K : num) dbg nv na (M0 : mat K) H0 s t e s' x l g s1 s2 v,
  reach (step dbg) any (init nv na M0 H0) s -> step dbg s (OCompute t e) = Ret s' OutUnit ->
  vlen x = nVar s' -> gets s' l x = Some s1 -> get s1 g x = Ret s2 v ->
  match g with
  | GAcc => vlen v = nv /\ forall j, j < nv -> vget v j = vget x j
  | GForce => vlen v = f_k s' /\ forall r, r < f_k s' -> vget v r = vget x (nv + r)
  | GTau => decode s' x = Some s2 /\ v = f_tau s2
  | GForceOf n =>
      (~ In n (contact_names s') -> vlen v = 0) /\
      (forall c, find_contact s' n = Some c ->
         vlen v = cl_nforce s' c /\
         forall r, r < cl_nforce s' c -> vget v r = vget x (nv + cl_index c + r))
  end.
Proof. exact (@getters_decode). Qed.
Print Assumptions C14_getters_decode.
Theorem C14_second_solution_refuted : forall dbg, exists s s1 s2 v v',
  reach (step dbg) (good dbg) sQ s /\ step dbg s (OGet GAcc (all_of 1)) = Ret s1 (OutVec v) /\
  step dbg s1 (OGet GAcc (all_of 2)) = Ret s2 (OutVec v') /\ vget v 0 = 1%Q /\ vget v' 0 = 1%Q.
Proof. exact getter_refuted. Qed.
Print Assumptions C14_second_solution_refuted.
Theorem C15_new_contact_refuted : forall dbg, exists s,
  reach (step dbg) (good dbg) sQ s /\ In "hand" (contact_names s) /\
  step dbg s (OGet (GForceOf "hand") (mkVec (nVar s) (fun _ => 0%Q))) = Undef.
Proof. exact contact_force_refuted. Qed.
Print Assumptions C15_new_contact_refuted.
(** The getters succeed, one after the other, on the scene (C12 - C15). *)
Example C12_C15_case : forall dbg, exists s s' s1 s2 s3 dv f tau,
  reach (step dbg) (assoc_good dbg asc) (@s0 Rnum) s /\ assoc_good dbg asc s (OCompute t0 one_env) /\
  step dbg s (OCompute t0 one_env) = Ret s' OutUnit /\ nVar s' = 5 /\
  get s' GAcc (@mkVec Rnum 5 stand) = Ret s1 dv /\ get s1 GForce (@mkVec Rnum 5 stand) = Ret s2 f /\
  get s2 GTau (@mkVec Rnum 5 stand) = Ret s3 tau /\ map tl_name (f_acts s') = ["tau"] /\
  map (cl_name s') (f_contacts s') = ["foot"].
Proof.
  intros dbg. destruct (build_scene R_checks dbg) as (A & B & C).
  destruct (scene_getters dbg) as (s1 & dv & E1 & E2 & E3). destruct (scene_names dbg) as (N1 & N2 & N3).
  do 2 eexists. exists s1, s1, s1, dv, (f_f s1), (f_tau s1).
  split; [exact A|]. split; [exact B|]. split; [exact C|]. split; [exact N1|].
  split; [exact E1|]. split; [exact E2|]. split; [exact E3|]. split; [exact N2|exact N3].
Qed.

(** ** C16 the force bound during a transition *)
Theorem C16_transition_bound : forall dbg nv na (M0 : mat Rnum) H0 s t e s' c x,
  reach (step dbg) calm (init nv na M0 H0) s -> calm s (OCompute t e) ->
  Forall (live t) (f_trans s) -> step dbg s (OCompute t e) = Ret s' OutUnit ->
  last_on (tr_obj c) (f_trans s) = Some c -> nth_error (f_objs s) (tr_obj c) = Some x ->
  exists x', nth_error (f_objs s') (tr_obj c) = Some x' /\
    (co_fmax x' = tr_f0 c + (t - tr_t0 c) / (tr_t1 c - tr_t0 c) * (tr_f1 c - tr_f0 c) /\
    Rmin (tr_f0 c) (tr_f1 c) <= co_fmax x' <= Rmax (tr_f0 c) (tr_f1 c) /\
    co_fmin x' = co_fmin x /\ (co_checks x = true -> co_fmin x' <= co_fmax x'))%R.
Proof. exact transition_bound. Qed.
Print Assumptions C16_transition_bound.
Theorem C16_no_throw : forall dbg nv na (M0 : mat Rnum) H0 s t e s',
  reach (step dbg) calm (init nv na M0 H0) s -> calm s (OCompute t e) -> step dbg s (OCompute t e) <> Exc s'.
Proof. exact compute_no_throw. Qed.
Print Assumptions C16_no_throw.
Theorem C16_schedule : forall (K : num) dbg s n (d : K) s',
  (n0 <? d)%num = true -> step dbg s (ORemContact n d) = Ret s' (OutBool true) ->
  exists c x, In c (f_contacts s) /\ nth_error (f_objs s) (cl_obj c) = Some x /\ co_name x = n /\
    s' = w_trans s (f_trans s ++ [mkTr (cl_obj c) (f_t s) (f_t s + d)%num (start_bound s c x)
                                       (co_fmin x + nofQ (1 # 1000))%num]).
Proof. exact (@schedule). Qed.
Print Assumptions C16_schedule.
Theorem C16_throw_refuted : forall dbg, exists s s' t e,
  reach (step dbg) (good dbg) sQ s /\ good dbg s (OCompute t e) /\ step dbg s (OCompute t e) = Exc s'.
Proof. exact transition_throw_refuted. Qed.
Print Assumptions C16_throw_refuted.
Example C16_case : forall dbg, exists s s' c, reach (step dbg) calm (@s0 Rnum) s /\
  calm s (OCompute ((1/2)%R : Rnum) one_env) /\ Forall (live ((1/2)%R : Rnum)) (f_trans s) /\
  step dbg s (OCompute ((1/2)%R : Rnum) one_env) = Ret s' OutUnit /\
  last_on (tr_obj c) (f_trans s) = Some c /\ nth_error (f_objs s) (tr_obj c) = Some foot.
Proof.
  intros dbg. destruct (leaving_compute dbg) as (s' & A & B & C). exists (leaving dbg), s', half_way.
  split; [exact (leaving_calm dbg)|]. split; [exact B|]. split; [exact C|]. split; [exact A|].
  split; [reflexivity|destruct dbg; vm_compute; reflexivity].
Qed.

(** ** C17 transitions complete *)
Theorem C17_transition_completes : forall (K : num) dbg nv na (M0 : mat K) H0 s t e s' l1 c l2,
  reach (step dbg) named (init nv na M0 H0) s -> f_trans s = l1 ++ c :: l2 -> Forall (live t) l1 -> over t c ->
  step dbg s (OCompute t e) = Ret s' OutUnit ->
  f_trans s' = l1 ++ l2 /\
  contact_names s' = without (obj_name s (tr_obj c)) (contact_names s) /\
  hqp_names s' = without3 (obj_name s (tr_obj c)) (hqp_names s).
Proof. exact (@transition_completes). Qed.
Print Assumptions C17_transition_completes.
Theorem C17_transitions_all_complete : forall (K : num) dbg nv na (M0 : mat K) H0 s l s',
  reach (step dbg) named (init nv na M0 H0) s -> computes dbg s l = Some s' ->
  List.length (f_trans s) <= List.length l ->
  (forall t e c, In (t, e) l -> In c (f_trans s) -> over t c) ->
  f_trans s' = [] /\ forall c, In c (f_trans s) -> ~ In (obj_name s (tr_obj c)) (contact_names s').
Proof. exact (@transitions_all_complete). Qed.
Print Assumptions C17_transitions_all_complete.
Theorem C17_both_refuted : forall dbg, exists s s',
  reach (step dbg) (good dbg) sQ s /\ step dbg s (OCompute (2%Q : Qnum) one_env) = Ret s' OutUnit /\
  Forall (over (2%Q : Qnum)) (f_trans s) /\ map (fun c => obj_name s (tr_obj c)) (f_trans s) = ["foot"; "hand"] /\
  contact_names s' = ["hand"].
Proof. exact both_transitions_refuted. Qed.
Print Assumptions C17_both_refuted.
Theorem C17_added_again_refuted : forall dbg, exists s s',
  reach (step dbg) (good dbg) sQ s /\ step dbg s (OCompute (2%Q : Qnum) one_env) = Ret s' OutUnit /\
  contact_names s = ["foot"] /\ contact_names s' = [].
Proof. exact added_again_refuted. Qed.
Print Assumptions C17_added_again_refuted.
Theorem C17_removed_twice_refuted : exists s, reach (step true) (good true) sQ s /\
  step true s (OCompute (2%Q : Qnum) one_env) = Undef.
Proof. exact removed_twice_refuted. Qed.
Print Assumptions C17_removed_twice_refuted.
Example C17_case : forall dbg, exists s s', reach (step dbg) (good dbg) sQ s /\
  computes dbg s [((2%Q : Qnum), one_env); ((3%Q : Qnum), one_env)] = Some s' /\
  List.length (f_trans s) = 2 /\ forallb (fun c => negb ((2%Q : Qnum) <=? tr_t1 c)%num) (f_trans s) = true.
Proof.
  intros dbg. exists (endQ dbg two_leaving).
  destruct (computes dbg (endQ dbg two_leaving) [((2%Q : Qnum), one_env); ((3%Q : Qnum), one_env)]) as [s'|] eqn:E.
  - exists s'. split; [apply endQ_good; [repeat constructor; exact one_env_uniform|destruct dbg; vm_compute; reflexivity]|].
    split; [reflexivity|]. split; destruct dbg; vm_compute; reflexivity.
  - exfalso. apply (f_equal some) in E. revert E. destruct dbg; vm_compute; discriminate.
Qed.

(** ** C18 measured forces *)
Theorem C18_external_torque : forall dbg nv na (M0 : mat Rnum) H0 asc s t e s',
  robot_ok nv M0 H0 -> reach (step dbg) (assoc_good dbg asc) (init nv na M0 H0) s ->
  assoc_good dbg asc s (OCompute t e) -> step dbg s (OCompute t e) = Ret s' OutUnit ->
  forall i, i < nv -> vget (f_hfext s') i = meas_torque s' e i.
Proof. exact external_torque. Qed.
Print Assumptions C18_external_torque.
Theorem C18_order_irrelevant : forall (s q : fstate Rnum) e i,
  Permutation (f_meas s) (f_meas q) -> meas_torque s e i = meas_torque q e i.
Proof. exact meas_torque_perm. Qed.
Print Assumptions C18_order_irrelevant.
Theorem C18_add_remove : forall (K : num) (s : fstate K) id n,
  ~ In n (map snd (f_meas s)) -> remove_meas (add_meas s id n) n = (s, true).
Proof. exact (@add_remove_meas). Qed.
Print Assumptions C18_add_remove.
Example C18_case : forall dbg, exists s s', reach (step dbg) (assoc_good dbg asc) (@s0 Rnum) s /\
  assoc_good dbg asc s (OCompute t0 one_env) /\ step dbg s (OCompute t0 one_env) = Ret s' OutUnit /\
  f_meas s' = [(0, "push")] /\ meas_torque s' one_env 0 = 1%R /\ ~ In "pull" (map snd (f_meas s')).
Proof.
  intros dbg. destruct (build_scene R_checks dbg) as (A & B & C).
  destruct (scene_lists dbg) as (_ & _ & _ & _ & E & _). do 2 eexists.
  split; [exact A|]. split; [exact B|]. split; [exact C|]. split; [exact E|]. split.
  - unfold meas_torque. rewrite E. cbn. rewrite Q2R_val. lra.
  - rewrite E. simpl. intros [H|[]]; discriminate.
Qed.

(** ** C19 force tasks act on their own contact only *)
Theorem C19_force_task_own_contact : forall (K : num) dbg nv na (M0 : mat K) H0 asc s t e s' f c,
  robot_ok nv M0 H0 -> reach (step dbg) (assoc_good dbg asc) (init nv na M0 H0) s ->
  assoc_good dbg asc s (OCompute t e) -> step dbg s (OCompute t e) = Ret s' OutUnit ->
  In f (f_forces s') -> In c (f_contacts s') ->
  cl_name s' c = asc (tl_task f) -> asc (tl_task f) <> "" ->
  task_filled s' f (f_nv s' + cl_index c) (cl_nforce s' c) (e_task e (tl_task f)).
Proof. exact (@force_task_own_contact). Qed.
Print Assumptions C19_force_task_own_contact.
Theorem C19_reassociated_refuted : forall dbg, exists s s' f c k,
  reach (step dbg) (good dbg) sQ s /\ good dbg s (OCompute (0%Q : Qnum) (env_assoc "foot2")) /\
  step dbg s (OCompute (0%Q : Qnum) (env_assoc "foot2")) = Ret s' OutUnit /\
  In f (f_forces s') /\ In c (f_contacts s') /\ cl_name s' c = "foot" /\
  nth_error (f_heap s') (tl_cstr f) = Some k /\ mget (c_mat k) 0 (f_nv s' + cl_index c) = 1%Q.
Proof. exact force_task_refuted. Qed.
Print Assumptions C19_reassociated_refuted.
Example C19_case : forall dbg, exists s s' f c, reach (step dbg) (assoc_good dbg asc) (@s0 Rnum) s /\
  assoc_good dbg asc s (OCompute t0 one_env) /\ step dbg s (OCompute t0 one_env) = Ret s' OutUnit /\
  In f (f_forces s') /\ In c (f_contacts s') /\ cl_name s' c = asc (tl_task f) /\ asc (tl_task f) <> "".
Proof.
  intros dbg. destruct (build_scene R_checks dbg) as (A & B & C).
  destruct (scene_lists dbg) as (_ & _ & E1 & E2 & _ & _ & E3 & _). do 2 eexists.
  exists (mkTl 1 "fc" 1 5), (mkCl 0 0 1 2 3).
  split; [exact A|]. split; [exact B|]. split; [exact C|]. rewrite E1, E3.
  split; [left; reflexivity|]. split; [left; reflexivity|]. split; [|discriminate].
  unfold cl_name, cobj_at. rewrite E2. reflexivity.
Qed.

(** ** C20 rejected arguments *)
Theorem C20_rejected_unchanged : forall (K : num) dbg (s : fstate K) o, adds_task o ->
  (rejected o <-> step dbg s o = Exc s) /\ forall s', step dbg s o = Exc s' -> s' = s.
Proof. exact (@rejected_unchanged). Qed.
Print Assumptions C20_rejected_unchanged.
Example C20_case : forall dbg (s : fstate Qnum),
  rejected (@OAddMotion Qnum 0 "com" CEq 1 (-1)%Q 1 0%Q) /\ step dbg s (@OAddMotion Qnum 0 "com" CEq 1 (-1)%Q 1 0%Q) = Exc s.
Proof. intros dbg s. split; [left; reflexivity|reflexivity]. Qed.

(** ** C54 no undefined behaviour *)
Theorem C54_never_undefined : forall (K : num) dbg nv na (M0 : mat K) H0 s o,
  robot_ok nv M0 H0 -> reach (step dbg) (good dbg) (init nv na M0 H0) s -> op_ok dbg s o -> step dbg s o <> Undef.
Proof. exact (@never_undefined). Qed.
Print Assumptions C54_never_undefined.
Example C54_case : forall dbg, exists s, reach (step dbg) (good dbg) (@s0 Rnum) s /\ op_ok dbg s (OCompute t0 one_env).
Proof.
  intros dbg. exists (built dbg build). split; [exact (build_good dbg R_checks)|].
  exact (proj2 (proj1 (proj1 (proj2 (build_scene R_checks dbg))))).
Qed.
