(** C93: removeFromHqpData called by the user. *)
From Coq Require Import String List Arith Bool ZArith QArith Lia.
From Verif Require Import Scalar Outcome Linalg Constraint Formulation FormSpec FormDataSpec FormSafe FormSafe2 FormMain FormCheck FormWitness FormRefute FormDrop FormDropQ.
Import ListNotations.
Open Scope string_scope.
Open Scope list_scope.
Open Scope nat_scope.

(** ** C93 the constraint leaves the problem and nothing else does *)
Theorem C93_effect : forall K dbg nv na (M0 : mat K) H0 s n, reach (step dbg) named (init nv na M0 H0) s ->
  exists s' b, remove_from_hqp s n = Ret s' b /\ (b = true <-> In n (hqp_names s)) /\
    hqp s' = without n (hqp s) /\ nVar s' = nVar s /\ nEq s' = nEq s /\ nIn s' = nIn s /\ slots s' = slots s /\
    contact_names s' = contact_names s /\
    (forall g x, match get s g x with
                 | Ret s1 v => exists s2, get s' g x = Ret s2 v | Exc s1 => exists s2, get s' g x = Exc s2 | Undef => get s' g x = Undef end).
Proof. exact @drop_effect. Qed.
Print Assumptions C93_effect.

Theorem C93_compute : forall K dbg nv na (M0 : mat K) H0 s n s' b t e, reach (step dbg) named (init nv na M0 H0) s ->
  remove_from_hqp s n = Ret s' b -> Forall (fun c => (t <=? tr_t1 c)%num = true) (f_trans s) ->
  match compute dbg s t e with
  | Ret s1 _ => exists s2, compute dbg s' t e = Ret s2 tt /\ hqp s2 = without n (hqp s1) /\
                           nVar s2 = nVar s1 /\ nEq s2 = nEq s1 /\ nIn s2 = nIn s1
  | Exc _ => exists s2, compute dbg s' t e = Exc s2
  | Undef => compute dbg s' t e = Undef
  end.
Proof. exact @drop_compute. Qed.
Print Assumptions C93_compute.

Theorem C93_counters : forall K dbg nv na (M0 : mat K) H0 s n s' b,
  reach (step dbg) (fun s o => names_ok s o /\ no_hard_force_removal s o) (init nv na M0 H0) s ->
  remove_from_hqp s n = Ret s' b ->
  nEq s' = (Z.of_nat (hard_eq_rows s') + Z.of_nat (rows_named is_eq n s))%Z /\
  nIn s' = (Z.of_nat (hard_in_rows s') + Z.of_nat (rows_named not_eq n s))%Z.
Proof. exact @drop_counters. Qed.
Print Assumptions C93_counters.

Theorem C93_update : forall K dbg nv na (M0 : mat K) H0 s n w s' b,
  reach (step dbg) named (init nv na M0 H0) s -> remove_from_hqp s n = Ret s' b ->
  step dbg s' (OUpdTask n w) = Ret s' (OutBool false).
Proof. exact @drop_update. Qed.
Print Assumptions C93_update.

(** removeTask afterwards. *)
Theorem C93_remove_task : forall K dbg nv na (M0 : mat K) H0 s n s' b,
  reach (step dbg) named (init nv na M0 H0) s -> remove_from_hqp s n = Ret s' b ->
  remove_task true s' n = Undef /\ remove_task false s' n = remove_task false s n.
Proof. exact @drop_remove_task. Qed.
Print Assumptions C93_remove_task.

(** removeRigidContact afterwards. *)
Theorem C93_remove_contact : forall K dbg nv na (M0 : mat K) H0 s c n s' b s2 b2,
  reach (step dbg) named (init nv na M0 H0) s -> of_contact c n -> remove_from_hqp s n = Ret s' b ->
  remove_contact_now false s c = Ret s2 b2 ->
  remove_contact_now true s' c = Undef /\
  exists s3, remove_contact_now false s' c = Ret s3 false /\
    hqp s3 = hqp s2 /\ nVar s3 = nVar s2 /\ nIn s3 = nIn s2 /\ contact_names s3 = contact_names s2 /\
    nEq s3 = if String.eqb n (c ++ "_motion_task") then nEq s else nEq s2.
Proof. exact @drop_remove_contact. Qed.
Print Assumptions C93_remove_contact.

(** "base-dynamics" can be taken out: variables violating the equations of motion are
    then allowed. *)
Theorem C93_dynamics_refuted : forall dbg, exists s s' w c,
  reach (step dbg) (good dbg) sQ s /\ remove_from_hqp s "base-dynamics" = Ret s' true /\
  nth 0 (hqp s) [] = [(w, Some c)] /\ c_kind c = CEq /\ 0 < vlen (c_vec c) /\
  ~ (@nsum Qnum (mcols (c_mat c)) (fun j => mget (c_mat c) 0 j * 0)%Q == vget (c_vec c) 0)%Q /\
  nth 0 (hqp s') [] = [] /\ nEq s' = nEq s /\ nEq s = 1%Z.
Proof. exact drop_base. Qed.
Print Assumptions C93_dynamics_refuted.

(** Computing the data stays defined: refuted when a contact is added after the
    constraint of a force task was taken out. *)
Theorem C93_resize_refuted : forall dbg, exists s s' s1 s2,
  reach (step dbg) (good dbg) sQ s /\ remove_from_hqp s "fc" = Ret s' true /\
  step dbg s' (OAddContact 0 1%Q 1%Q 0) = Ret s1 (OutBool true) /\ step dbg s1 (OCompute 0%Q one_env) = Undef /\
  step dbg s (OAddContact 0 1%Q 1%Q 0) = Ret s2 (OutBool true) /\ good dbg s (OAddContact 0 1%Q 1%Q 0) /\ good dbg s2 (OCompute 0%Q one_env).
Proof. exact drop_unresized. Qed.
Print Assumptions C93_resize_refuted.

(** The counters after the contact is gone too. *)
Theorem C93_counted_refuted : forall dbg, exists s s' s3,
  reach (step dbg) (good dbg) sQ s /\ remove_from_hqp s "foot_motion_task" = Ret s' true /\
  remove_contact_now false s' "foot" = Ret s3 false /\ contact_names s3 = [] /\
  nEq s3 = 3%Z /\ hard_eq_rows s3 = 1.
Proof. exact drop_counted. Qed.
Print Assumptions C93_counted_refuted.

(** ** The hypotheses are met *)
(** The contact [foot], a force task on it and a hard motion task. *)
Definition drop_scene : list (fop Qnum) :=
  [ONewContact foot; OAddContact 0 1%Q 1%Q 0; OAddForce 1 "fc" CIneq 1 1%Q 1 0%Q; OAddMotion 0 "com" CEq 1 1%Q 0 0%Q].
Lemma drop_scene_good : reach (step true) (good true) (init 3 2 (mzero 3 3) (vzero 3)) (endQ true drop_scene).
Proof. apply (endQ_good true drop_scene); [repeat constructor|vm_compute; reflexivity]. Qed.
Lemma drop_scene_named : reach (step true) (@named Qnum) (init 3 2 (mzero 3 3) (vzero 3)) (endQ true drop_scene).
Proof. refine (reach_weaken true _ _ _ _ _ drop_scene_good). intros s o (H & _). exact H. Qed.

Example C93_case : exists s', remove_from_hqp (endQ true drop_scene) "com" = Ret s' true /\
  hqp_names s' = ["base-dynamics"; "foot_motion_task"; "foot_force_constraint"; "foot_force_reg_task"; "fc"] /\
  nEq s' = 4%Z /\ hard_eq_rows s' = 3 /\ rows_named is_eq "com" (endQ true drop_scene) = 1.
Proof.
  exists (dropped (endQ true drop_scene) "com"). split; [apply ret_drop; vm_compute; reflexivity|].
  split; [vm_compute; reflexivity|]. split; [vm_compute; reflexivity|]. split; vm_compute; reflexivity.
Qed.
Example C93_case_contact : of_contact "foot" "foot_force_constraint" /\
  (exists s2, remove_contact_now false (endQ true drop_scene) "foot" = Ret s2 true) /\
  Forall (fun c => (0%Q <=? tr_t1 c)%num = true) (f_trans (endQ true drop_scene)).
Proof.
  split; [right; left; reflexivity|]. split.
  - assert (H : match remove_contact_now false (endQ true drop_scene) "foot" with Ret _ b => b | _ => false end = true) by (vm_compute; reflexivity).
    destruct (remove_contact_now false (endQ true drop_scene) "foot") as [z [|]| |]; try discriminate H. eauto.
  - replace (f_trans (endQ true drop_scene)) with (@nil (ctrans Qnum)) by (vm_compute; reflexivity). constructor.
Qed.
(** A history with contacts coming and going, counted as the theorem on the counters asks. *)
Example C93_case_counters : forall dbg,
  reach (step dbg) (fun s o => names_ok s o /\ no_hard_force_removal s o) (@s0 Qnum) (@built Qnum dbg detour) /\
  exists s' : fstate Qnum, remove_from_hqp (@built Qnum dbg detour) "tau" = Ret s' true /\ nIn s' = 5%Z /\ hard_in_rows s' = 3 /\
    rows_named not_eq "tau" (@built Qnum dbg detour) = 2.
Proof.
  intros dbg. split; [exact (detour_counted dbg)|]. exists (dropped (@built Qnum dbg detour) "tau").
  split; [apply ret_drop; destruct dbg; vm_compute; reflexivity|]. destruct dbg; splits; vm_compute; reflexivity.
Qed.
