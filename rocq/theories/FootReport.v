(** What get_LF_3d_pos_vel_acc and get_RF_3d_pos_vel_acc of exercizes/tsid_biped.py
    ("tb") return. *)
From Coq Require Import String List Arith Bool ZArith Reals Lia Lra.
From Verif Require Import Scalar Outcome Linalg Constraint FormPhysSpec RSum Masks MaskReal RobotModel RobotModelR.
From Verif Require FrameTasks FrameTasksP FrameTasksR FrameRefute.
Import ListNotations.
Open Scope list_scope.
Open Scope nat_scope.

Section FR.
Context {K : num}.
Record report := mkReport { e_pos : nat -> K; e_vel : nat -> K; e_acc : vec K }.
(** tb:249-261 with the data of the last computeProblemData and the foot task: the slice
    a[:3] has at most three entries; getAcceleration with a vector of another size is an
    assertion failure. *)
Definition foot_report (m : model K) (d : data K) (idx : nat) (h : FrameTasks.mtask K) (dv : vec K) : outcome unit report :=
  match frame_position m d idx with
  | Ret _ H =>
      match frame_velocity m d idx with
      | Ret _ v =>
          match FrameTasks.mt_acc true h dv with
          | Some a => Ret tt (mkReport (p_p H) (m_lin v) (mkVec (Nat.min 3 (vlen a)) (vget a)))
          | None => Undef
          end
      | Exc s => Exc s
      | Undef => Undef
      end
  | Exc s => Exc s
  | Undef => Undef
  end.
End FR.
Arguments report : clear implicits.

(** * Over the reals *)
(** The data d0 hold the placements and velocities of the motion at this time (the
    accelerations are those of zero joint accelerations, computeAllTerms). *)
Definition same_state (d0 d : data Rnum) : Prop := d_oMi d0 = d_oMi d /\ d_v d0 = d_v d.
(** The task saw the foot, and J dv + drift is its acceleration in the motion. *)
Definition saw (nv : nat) (m : model Rnum) (idx : nat) (d0 d : data Rnum) (x : FrameTasks.fdata Rnum) (dv : vec Rnum) : Prop :=
  same_state d0 d /\ exists F c, frame_position m d idx = Ret tt F /\ frame_classic m d idx = Ret tt c /\
    (forall i k, i < 3 -> k < 3 -> FrameTasks.d_R x i k = p_R F i k) /\
    forall i, i < 3 -> (rsum nv (fun k => FrameTasks.d_J x i k * vget dv k) + FrameTasks.d_a x i)%R = m_lin c i.

(** getAcceleration of a task with all six components. *)
Lemma acc_value log3 name nv (s : FrameTasks.se3t Rnum) x s' (dv : vec Rnum) :
  @FrameTasksP.se3_made Rnum Rtrunc log3 name nv s -> FrameTasks.x_mask s = FrameRefute.ones_n 6 ->
  @FrameTasks.se3_step Rnum Rtrunc log3 s (FrameTasks.XCompute x) = Ret s' tt -> vlen dv = nv ->
  exists a, FrameTasks.mt_acc true (FrameTasks.x_h s') dv = Some a /\ vlen a = 6 /\
    forall i, i < 3 -> vget a i = if FrameTasks.x_local s then (rsum nv (fun k => FrameTasks.d_J x i k * vget dv k) + FrameTasks.d_a x i)%R
      else mv (FrameTasks.d_R x) (fun i => rsum nv (fun k => FrameTasks.d_J x i k * vget dv k) + FrameTasks.d_a x i)%R i.
Proof.
  intros M A E L. destruct (FrameTasksP.se3_done _ _ _ _ _ _ _ M E) as (_ & _ & _ & _ & _ & _ & _ & _ & D).
  destruct (FrameTasksR.done_acc _ _ _ _ _ _ _ _ _ D true dv L) as (a & EA & LA & VA). exists a. split; [exact EA|].
  rewrite A in LA, VA. split; [rewrite LA, (proj1 (FrameRefute.mdim_01 (FrameRefute.ones_n 6) (FrameRefute.ones_n_01 6))); change (vlen (FrameRefute.ones_n 6)) with 6; rewrite FrameRefute.ons_ones; reflexivity|].
  intros i Hi. rewrite (VA i i); [|rewrite FrameRefute.ons_ones; destruct i as [|[|[|i]]]; [reflexivity..|lia]].
  unfold FrameTasksR.accel, FrameTasks.se3_J, FrameTasks.se3_drift. destruct (FrameTasks.x_local s).
  - unfold Rnum. cbn. ring.
  - unfold mv, dot_, FrameTasks.act_mat, FrameTasks.act. replace (i <? 3) with true by (symmetry; apply Nat.ltb_lt; exact Hi).
    rewrite (rsum_ext nv _ (fun k => FrameTasks.d_R x i 0%nat * (FrameTasks.d_J x 0%nat k * vget dv k) + FrameTasks.d_R x i 1%nat * (FrameTasks.d_J x 1%nat k * vget dv k)
        + FrameTasks.d_R x i 2%nat * (FrameTasks.d_J x 2%nat k * vget dv k))%R) by (intros k _; cbn [nsum]; unfold Rnum; cbn; ring).
    rewrite !rsum_plus, !rsum_scal. cbn [nsum]. unfold Rnum. cbn. ring.
Qed.
Theorem foot_reported log3 name nv (s : FrameTasks.se3t Rnum) x s' dv z (P : se3 Rnum) m d d0 idx j t :
  @FrameTasksP.se3_made Rnum Rtrunc log3 name nv s -> FrameTasks.x_mask s = FrameRefute.ones_n 6 ->
  @FrameTasks.se3_step Rnum Rtrunc log3 s (FrameTasks.XCompute x) = Ret s' tt -> vlen dv = nv ->
  moving z -> tracks d j z -> attached m idx j P -> saw nv m idx d0 (d t) x dv ->
  exists r F, foot_report m d0 idx (FrameTasks.x_h s') dv = Ret tt r /\ frame_position m (d t) idx = Ret tt F /\ vlen (e_acc r) = 3 /\
    (forall i, i < 3 -> e_pos r i = position_of m idx (d t) i) /\
    exists v : R -> nat -> R, (forall u i, i < 3 -> derivable_pt_lim (fun u => position_of m idx (d u) i) u (v u i)) /\
      (forall i, i < 3 -> v t i = mv (p_R F) (e_vel r) i) /\
      forall i, i < 3 -> derivable_pt_lim (fun u => v u i) t (if FrameTasks.x_local s then mv (p_R F) (vget (e_acc r)) i else vget (e_acc r) i).
Proof.
  intros M A E L MZ TZ AT ((S1 & S2) & F & c & EF & EC & SR & SA). destruct (acc_value log3 name nv s x s' dv M A E L) as (a & EA & LA & VA).
  assert (FP : frame_position m d0 idx = frame_position m (d t) idx) by (unfold frame_position; rewrite S1; reflexivity).
  assert (FV : frame_velocity m d0 idx = frame_velocity m (d t) idx) by (unfold frame_velocity; rewrite S2; reflexivity).
  destruct (velocity_world z P zero3 m d idx j t MZ TZ AT) as (y & EY & _ & DY).
  destruct (classic_world z P zero3 m d idx j t MZ TZ AT) as (w & EW & _ & v & DV & DW).
  unfold frame_velocity_world, world_oriented in EY. unfold frame_classic_world, world_oriented in EW. rewrite EF in EY, EW. rewrite EC in EW.
  destruct (frame_velocity m (d t) idx) as [u0 l| |] eqn:EL; [|discriminate|discriminate].
  assert (HY : mot_act (@mkSE3 Rnum (p_R F) zero3) l = y) by congruence. assert (HW : mot_act (@mkSE3 Rnum (p_R F) zero3) c = w) by congruence. clear EY EW.
  unfold foot_report. rewrite FP, EF, FV, EA. do 2 eexists. split; [reflexivity|]. split; [reflexivity|]. cbn [e_pos e_vel e_acc vlen vget]. rewrite LA. split; [reflexivity|].
  split; [intros i Hi; unfold position_of; rewrite EF; reflexivity|]. exists v. split; [exact DV|].
  assert (LY : forall q i, i < 3 -> m_lin (mot_act (@mkSE3 Rnum (p_R F) zero3) q) i = mv (p_R F) (m_lin q) i).
  { intros q i Hi. cbn [mot_act m_lin p_R p_p]. rewrite app3_mv, crossf_cr. cbn [Rnum nadd car]. rewrite cr_zero. apply Rplus_0_r. }
  split.
  - intros i Hi. apply (uniqueness_limite (fun u => position_of m idx (d u) i) t); [apply DV; exact Hi|]. eapply dlim_eq; [|apply (DY i Hi)]. rewrite <- HY, LY by exact Hi. rewrite cr_zero. apply Rminus_0_r.
  - intros i Hi. eapply dlim_eq; [|apply (DW i Hi)]. rewrite <- HW, LY by exact Hi. rewrite cr_zero. rewrite Rminus_0_r. destruct (FrameTasks.x_local s).
    + apply mv_ext. intros k Hk. rewrite (VA k Hk). symmetry. apply SA. exact Hk.
    + rewrite (VA i Hi). unfold mv, dot_. rewrite !SR, !SA by lia. reflexivity.
Qed.
(** The reported velocity is the derivative exactly if the foot's rotation leaves it as it
    is. *)
Theorem velocity_kept log3 name nv (s : FrameTasks.se3t Rnum) x s' dv z (P : se3 Rnum) m d d0 idx j t r F :
  @FrameTasksP.se3_made Rnum Rtrunc log3 name nv s -> FrameTasks.x_mask s = FrameRefute.ones_n 6 ->
  @FrameTasks.se3_step Rnum Rtrunc log3 s (FrameTasks.XCompute x) = Ret s' tt -> vlen dv = nv ->
  moving z -> tracks d j z -> attached m idx j P -> saw nv m idx d0 (d t) x dv ->
  foot_report m d0 idx (FrameTasks.x_h s') dv = Ret tt r -> frame_position m (d t) idx = Ret tt F ->
  ((forall i, i < 3 -> derivable_pt_lim (fun u => position_of m idx (d u) i) t (e_vel r i)) <-> forall i, i < 3 -> mv (p_R F) (e_vel r) i = e_vel r i).
Proof.
  intros M A E L MZ TZ AT SW ER EF. destruct (foot_reported log3 name nv s x s' dv z P m d d0 idx j t M A E L MZ TZ AT SW) as (r' & F' & ER' & EF' & _ & _ & v & DV & VV & _).
  assert (r' = r) by congruence. assert (F' = F) by congruence. subst r' F'. split.
  - intros H i Hi. rewrite <- (VV i Hi). apply (uniqueness_limite (fun u => position_of m idx (d u) i) t); [apply DV|apply H]; exact Hi.
  - intros H i Hi. rewrite <- (H i Hi), <- (VV i Hi). apply DV. exact Hi.
Qed.

(** ** A foot at distance 1 from a vertical axis, turning with speed 1 *)
(** Local Jacobian and drift of the frame for the only joint. *)
Definition ring_data (t : R) : FrameTasks.fdata Rnum :=
  @FrameTasks.mkFd Rnum (z_R turning t) (fun i => position_of (one_frame ex_place) 0 (joint_data turning t) i)
    (fun i => match i with 1 | 5 => 1%R | _ => 0%R end) (fun i => match i with 0 => (-1)%R | _ => 0%R end) (fun i _ => match i with 1 | 5 => 1%R | _ => 0%R end).
Lemma ring_saw t : saw 1 (one_frame ex_place) 0 (joint_data turning t) (joint_data turning t) (ring_data t) (@vzero Rnum 1).
Proof.
  split; [split; reflexivity|]. do 2 eexists. split; [reflexivity|]. split; [reflexivity|]. split.
  - intros i k Hi Hk. cbn [ring_data FrameTasks.d_R se3_act p_R]. unfold mul3. cbn [nsum]. unfold ex_place, unit_rot, turning. cbn [p_R z_R].
    destruct i as [|[|[|i]]]; [| | |lia]; (destruct k as [|[|[|k]]]; [| | |lia]); unfold Rnum; cbn; ring.
  - intros i Hi. rewrite rsum_S, rsum_0. unfold ring_data, ex_place, unit_rot, turning, zero3. destruct i as [|[|[|i]]]; [| | |lia]; unfold Rnum; cbn; ring.
Qed.
Lemma ring_task log3 name : exists s, @FrameTasksP.se3_made Rnum Rtrunc log3 name 1 s /\ FrameTasks.x_mask s = FrameRefute.ones_n 6 /\ FrameTasks.x_local s = true.
Proof. destruct (FrameRefute.se3_start log3 name 1) as (s & M & A & B & _). exists s. auto. Qed.
Theorem velocity_refuted log3 name : exists s x s' r, @FrameTasksP.se3_made Rnum Rtrunc log3 name 1 s /\ FrameTasks.x_local s = true /\ FrameTasks.x_mask s = FrameRefute.ones_n 6 /\
  @FrameTasks.se3_step Rnum Rtrunc log3 s (FrameTasks.XCompute x) = Ret s' tt /\ saw 1 (one_frame ex_place) 0 (joint_data turning (PI / 2)) (joint_data turning (PI / 2)) x (@vzero Rnum 1) /\
  foot_report (one_frame ex_place) (joint_data turning (PI / 2)) 0 (FrameTasks.x_h s') (@vzero Rnum 1) = Ret tt r /\
  (derivable_pt_lim (fun u => position_of (one_frame ex_place) 0 (joint_data turning u) 0) (PI / 2) (-1)%R /\ e_vel r 0 = 0%R /\ e_vel r 1 = 1%R) /\
  exists v, (forall u, derivable_pt_lim (fun u => position_of (one_frame ex_place) 0 (joint_data turning u) 0) u (v u)) /\ derivable_pt_lim v (PI / 2) 0%R /\ vget (e_acc r) 0 = (-1)%R.
Proof.
  destruct (ring_task log3 name) as (s & M & A & B). destruct (FrameRefute.se3_runs log3 name 1 s (ring_data (PI / 2)) M A) as (s' & E).
  destruct (foot_reported log3 name 1 s _ s' (@vzero Rnum 1) turning ex_place (one_frame ex_place) (joint_data turning) (joint_data turning (PI / 2)) 0 0 (PI / 2) M A E eq_refl turning_moves (joint_tracks turning) ex_attached (ring_saw _)) as (r & F & ER & EF & LA & PP & v & DV & VV & AV).
  destruct (acc_value log3 name 1 s _ s' (@vzero Rnum 1) M A E eq_refl) as (a & EA & LA' & VA).
  exists s, (ring_data (PI / 2)), s', r. split; [exact M|]. split; [exact B|]. split; [exact A|]. split; [exact E|]. split; [apply ring_saw|]. split; [exact ER|].
  assert (PV : forall u, position_of (one_frame ex_place) 0 (joint_data turning u) 0 = cos u).
  { intros u. rewrite (position_value _ (joint_data turning) 0 0 turning ex_place u 0 (joint_tracks turning) ex_attached). unfold mv, dot_, turning, ex_place. cbn. ring. }
  unfold foot_report in ER. rewrite EA in ER. cbn [frame_position frame_velocity frame_of one_frame mo_frames nth_error joint_data d_oMi d_v obind] in ER. injection ER as <-.
  split; [split|].
  - eapply dlim_ext; [intros u; symmetry; apply PV|]. eapply dlim_eq; [|apply derivable_pt_lim_cos]. rewrite sin_PI2. reflexivity.
  - cbn [e_vel]. unfold ex_place, unit_rot, turning. split; unfold Rnum; cbn; ring.
  - exists (fun u => v u 0%nat). split; [intros u; apply DV; lia|]. split.
    + assert (VC : forall u, v u 0%nat = (- sin u)%R).
      { intros u. apply (uniqueness_limite (fun u => position_of (one_frame ex_place) 0 (joint_data turning u) 0) u); [apply DV; lia|]. eapply dlim_ext; [intros q; symmetry; apply PV|]. apply derivable_pt_lim_cos. }
      apply dlim_ext with (f := fun u => (- sin u)%R); [intros u; symmetry; apply VC|]. eapply dlim_eq; [|apply (derivable_pt_lim_opp sin); apply derivable_pt_lim_sin]. rewrite cos_PI2. ring.
    + cbn [e_acc vget]. rewrite (VA 0 ltac:(lia)), B. rewrite rsum_S, rsum_0. unfold ring_data, vzero, Rnum. cbn. ring.
Qed.
