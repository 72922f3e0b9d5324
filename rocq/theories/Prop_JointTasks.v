(** Properties C40, C41, C58, C59: posture and actuation tasks with masks.  Only
    statements; the proofs are in JointTasksP.v and JointTasksR.v.
    [tmade], [umade], [emade]: TaskJointPosture, TaskActuationBounds and
    TaskActuationEquality reached by any calls in which masks of the right size have
    entries 0 and 1.  [actives m] is the list of joints switched on, in order.
    [dif] is pinocchio::difference. *)
From Coq Require Import String List Arith Bool ZArith Reals Lia Lra.
From Verif Require Import Scalar Outcome Linalg Constraint FormPhysSpec Masks MaskReal JointBounds JointTask JointRefute JointTasks JointTasksP JointTasksR.
Import ListNotations.
Open Scope nat_scope.

(** ** C40 masks *)
Theorem C40_posture : forall (K : num) (toZ : K -> Z) dif, (forall n, good_mask toZ (mkVec n (fun _ => n1))) ->
  forall name neu nqa nv na (s : post K) q v, na <= nv -> nqa <= vlen neu -> tmade toZ dif name neu nqa nv na s ->
  vlen q = vlen neu -> na <= vlen v ->
  exists s', post_step toZ dif s (TCompute q v) = Ret s' tt /\ c_kind (t_c s') = CEq /\
    selects (nv - na) (fun _ => n1) (actives (t_mask s)) (c_mat (t_c s')) /\ mcols (c_mat (t_c s')) = nv /\
    vlen (c_vec (t_c s')) = length (actives (t_mask s)) /\ vlen (t_ades s') = na /\
    forall j i, nth_error (actives (t_mask s)) j = Some i -> vget (c_vec (t_c s')) j = vget (t_ades s') i.
Proof. exact @post_rows. Qed.
Print Assumptions C40_posture.
(** Until setBounds is called again a new mask forces the torques to zero. *)
Theorem C40_actuation_bounds : forall name na s jk m l u, umade Rtrunc name na s -> vlen m = na -> mask01 m ->
  vlen l = length (actives m) -> vlen u = length (actives m) ->
  exists s1 s2, actb_step Rtrunc s (UMask jk m) = Ret s1 tt /\ actb_step Rtrunc s1 (UBounds l u) = Ret s2 tt /\
    (forall tau, sat (u_c s2) tau <-> forall j i, nth_error (actives m) j = Some i -> (vget l j <= tau i <= vget u j)%R) /\
    (forall tau, sat (u_c s1) tau <-> forall i, i < na -> active m i -> tau i = 0%R).
Proof. exact actb_masked. Qed.
Print Assumptions C40_actuation_bounds.
Theorem C40_actuation_bounds_always : forall name na s, umade Rtrunc name na s -> forall tau, sat (u_c s) tau <->
  forall j i, nth_error (actives (u_mask s)) j = Some i -> (vget (c_lb (u_c s)) j <= tau i <= vget (c_ub (u_c s)) j)%R.
Proof. exact actb_meaning. Qed.
Print Assumptions C40_actuation_bounds_always.
Theorem C40_actuation_equality : forall name na s, emade Rtrunc name na s -> forall tau, sat (e_c s) tau <->
  forall i, i < na -> active (e_mask s) i -> vget (e_w s) i <> 0%R -> tau i = vget (e_ref s) i.
Proof. exact acte_meaning. Qed.
Print Assumptions C40_actuation_equality.
Theorem C40_actuation_equality_setters : forall name na s, emade Rtrunc name na s ->
  (forall jk m, vlen m = na -> mask01 m -> exists s', acte_step Rtrunc s (EMask jk m) = Ret s' tt /\ emade Rtrunc name na s' /\
     e_mask s' = m /\ e_ref s' = e_ref s /\ e_w s' = e_w s) /\
  (forall r, vlen r = na -> exists s', acte_step Rtrunc s (ERef r) = Ret s' tt /\ emade Rtrunc name na s' /\
     e_mask s' = e_mask s /\ e_ref s' = r /\ e_w s' = e_w s) /\
  (forall w, vlen w = na -> exists s', acte_step Rtrunc s (EWeight w) = Ret s' tt /\ emade Rtrunc name na s' /\
     e_mask s' = e_mask s /\ e_ref s' = e_ref s /\ e_w s' = w).
Proof. exact acte_setters. Qed.
Print Assumptions C40_actuation_equality_setters.
(** The mask (0, 1). *)
Definition m01 : vec Rnum := @mkVec Rnum 2 (fun i => if i =? 1 then 1%R else 0%R).
Example C40_mask : @mask01 Rnum m01 /\ actives m01 = [1].
Proof.
  split.
  - intros i Hi. unfold m01. cbn [vget]. destruct (i =? 1); [right|left]; apply Reqb_true; reflexivity.
  - unfold actives, is_on, m01. cbn [vlen seq filter vget Nat.eqb].
    replace (@neqb Rnum 0%R n0) with true by (symmetry; apply Reqb_true; reflexivity).
    replace (@neqb Rnum 1%R n0) with false by (symmetry; apply Reqb_false; change (@n0 Rnum) with 0%R; lra). reflexivity.
Qed.
Example C40_case : forall name, (exists s, umade Rtrunc name 2 s) /\
  exists s, emade Rtrunc name 2 s /\ e_mask s = m01 /\ vget (e_ref s) 1 = 3%R /\ vget (e_w s) 1 = 2%R.
Proof.
  intros name. split.
  - destruct (actb_new_ok Rtrunc good_ones_R (fun _ => 0) name 2) as (s & E & _). exists s, (fun _ => 0), s. split; [exact E|apply reach_init].
  - destruct (acte_new_ok Rtrunc good_ones_R (fun _ => 0) name 2) as (s & E & _).
    assert (M : emade Rtrunc name 2 s) by (exists (fun _ => 0), s; split; [exact E|apply reach_init]).
    destruct (C40_actuation_equality_setters name 2 s M) as (H & _). destruct (H (fun _ => 0) m01) as (s1 & _ & M1 & A1 & _); [reflexivity|apply C40_mask|].
    destruct (C40_actuation_equality_setters name 2 s1 M1) as (_ & H1 & _). destruct (H1 (@mkVec Rnum 2 (fun _ => 3%R))) as (s2 & _ & M2 & A2 & B2 & _); [reflexivity|].
    destruct (C40_actuation_equality_setters name 2 s2 M2) as (_ & _ & H2). destruct (H2 (@mkVec Rnum 2 (fun _ => 2%R))) as (s3 & _ & M3 & A3 & B3 & C3); [reflexivity|].
    exists s3. split; [exact M3|]. rewrite A3, A2, A1, B3, B2, C3. auto.
Qed.

(** ** C41 posture: PD law and reported accelerations *)
Theorem C41_meaning : forall dif name neu nqa nv na s q v s', respects dif -> na <= nv -> nqa <= vlen neu -> tmade Rtrunc dif name neu nqa nv na s ->
  post_step Rtrunc dif s (TCompute q v) = Ret s' tt -> forall y, sat (t_c s') y <->
  forall i, i < na -> active (t_mask s) i ->
    y (nv - na + i) = (vget (t_sec s) i - vget (t_kp s) i * dif (ref_config neu (t_val s)) q (nv - na + i)%nat - vget (t_kd s) i * (last_of na v i - vget (t_der s) i))%R.
Proof. exact post_meaning. Qed.
Print Assumptions C41_meaning.
Theorem C41_reported : forall dif name neu nqa nv na s q v s' dv, na <= nv -> nqa <= vlen neu -> tmade Rtrunc dif name neu nqa nv na s ->
  post_step Rtrunc dif s (TCompute q v) = Ret s' tt -> vlen dv = nv ->
  exists a, post_acc s' dv = Some a /\ vlen a = length (actives (t_mask s)) /\ vlen (t_ades s') = na /\
    (forall j i, nth_error (actives (t_mask s)) j = Some i -> vget a j = vget dv (nv - na + i)) /\
    (sat (t_c s') (vget dv) <-> forall j i, nth_error (actives (t_mask s)) j = Some i -> vget a j = vget (t_ades s') i).
Proof. exact post_reports. Qed.
Print Assumptions C41_reported.
Theorem C41_setters : forall (K : num) (toZ : K -> Z) dif, (forall n, good_mask toZ (mkVec n (fun _ => n1))) ->
  forall name neu nqa nv na (s : post K), na <= nv -> nqa <= vlen neu -> tmade toZ dif name neu nqa nv na s ->
  (forall k, (vlen k = na -> exists s', post_step toZ dif s (TKp k) = Ret s' tt /\ set_to s s' k (t_kd s) (t_val s) (t_der s) (t_sec s)) /\
             (vlen k <> na -> post_step toZ dif s (TKp k) = Exc s)) /\
  (forall k, (vlen k = na -> exists s', post_step toZ dif s (TKd k) = Ret s' tt /\ set_to s s' (t_kp s) k (t_val s) (t_der s) (t_sec s)) /\
             (vlen k <> na -> post_step toZ dif s (TKd k) = Exc s)) /\
  (forall va de se, (vlen va = nqa /\ vlen de = na /\ vlen se = na ->
              exists s', post_step toZ dif s (TRef va de se) = Ret s' tt /\ set_to s s' (t_kp s) (t_kd s) va de se) /\
             (~ (vlen va = nqa /\ vlen de = na /\ vlen se = na) -> post_step toZ dif s (TRef va de se) = Exc s)).
Proof. exact @post_setters. Qed.
Print Assumptions C41_setters.
(** Robot with two prismatic joints, the first one masked out. *)
Definition dif2 : vec Rnum -> vec Rnum -> nat -> Rnum := fun a q i => if i <? vlen a then (vget q i - vget a i)%R else 0%R.
Example C41_case : forall name, respects dif2 /\ exists s, tmade Rtrunc dif2 name (vzero 2) 2 2 2 s /\ t_mask s = m01 /\ vget (t_kp s) 1 = 5%R.
Proof.
  intros name. split.
  - intros a b q i [L H]. unfold dif2. rewrite L. destruct (i <? vlen b) eqn:E; [|reflexivity]. rewrite H; [reflexivity|]. rewrite L. apply Nat.ltb_lt. exact E.
  - destruct (post_new_ok Rtrunc good_ones_R (fun _ => 0) name (vzero 2) 2 2 2) as (s & E & I & _); [lia|cbn; lia|].
    assert (G : good_mask Rtrunc m01) by (apply good_R, C40_mask).
    destruct (post_mask_ok Rtrunc (fun _ => 0) name 2 2 s m01) as (ax & c & EM & _); try apply I; [lia|reflexivity|exact G|].
    eexists. split; [|split].
    { exists (fun _ => 0), s. split; [exact E|]. eapply reach_step with (o := TKp (mkVec 2 (fun _ => 5%R : Rnum))).
      - eapply reach_step with (o := TMask (fun _ => 0) m01); [apply reach_init|intros _; exact G|].
        cbn [post_step]. rewrite (ti_na _ _ _ _ _ _ _ I). cbn [m01 vlen Nat.eqb]. fold m01. rewrite EM. reflexivity.
      - exact Logic.I.
      - cbn [post_step t_na vlen Nat.eqb]. reflexivity. }
    { reflexivity. }
    { reflexivity. }
Qed.

(** ** C58 rejected masks *)
(** After a mask that is rejected the next compute is undefined behaviour ... *)
Theorem C58_posture_refuted : forall dif name neu, vlen neu = 1 -> forall jk, exists (s s1 : post Rnum), tmade Rtrunc dif name neu 1 1 1 s /\
  post_step Rtrunc dif s (TMask jk (v1 2)) = Exc s1 /\ t_mask s <> t_mask s1 /\
  forall q v, vlen q = 1 -> vlen v = 1 ->
    (exists s', post_step Rtrunc dif s (TCompute q v) = Ret s' tt) /\ post_step Rtrunc dif s1 (TCompute q v) = Undef.
Proof. exact mask_rejected_posture. Qed.
Print Assumptions C58_posture_refuted.
(** ... or bounds of a wrong size are accepted. *)
Theorem C58_actuation_bounds_refuted : forall name jk l u, vlen l = 2 -> vlen u = 2 -> exists (s s1 s2 : actb Rnum), umade Rtrunc name 1 s /\
  actb_step Rtrunc s (UMask jk (v1 2)) = Exc s1 /\ actb_step Rtrunc s1 (UBounds l u) = Ret s2 tt /\
  mrows (c_mat (u_c s2)) = 1 /\ vlen (c_lb (u_c s2)) = 2 /\ actb_step Rtrunc s (UBounds l u) = Exc s.
Proof. exact mask_rejected_bounds. Qed.
Print Assumptions C58_actuation_bounds_refuted.

(** ** C59 errors and velocity reported by the posture task; position() is empty *)
Theorem C59_getters_position_refuted : forall dif name neu nqa nv na s q v, na <= nv -> nqa <= vlen neu -> tmade Rtrunc dif name neu nqa nv na s ->
  vlen q = vlen neu -> na <= vlen v -> respects dif ->
  exists s', post_step Rtrunc dif s (TCompute q v) = Ret s' tt /\
    vlen (t_v s') = na /\ vlen (t_perr s') = na /\ vlen (t_verr s') = na /\
    (forall i, i < na -> vget (t_v s') i = last_of na v i /\ vget (t_verr s') i = (last_of na v i - vget (t_der s) i)%R /\
       vget (t_perr s') i = dif (ref_config neu (t_val s)) q (nv - na + i)) /\
    vlen (t_p s') = 0.
Proof. exact post_getters. Qed.
Print Assumptions C59_getters_position_refuted.
