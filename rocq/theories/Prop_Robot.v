(** Properties C51, C52, C69, C70 and C72: constant trajectories, mass matrix and frame motion of
    the robot.  Only statements; the proofs are in ConstTraj.v and RobotModelR.v.
    [last_ref], [last_place]: the reference given last; [constant_sample v n s]: s is v with
    n zero derivatives.  [last_rotor], [last_gear]: parameters set last with the right size.
    [moving z]: a joint whose placement, velocity and acceleration belong together;
    [tracks d j z]: the data hold this joint as number j; [attached m idx j P]: frame idx is
    fixed to joint j with placement P.  [junk]: the translation of a placement that the
    world-oriented functions use without setting it. *)
From Coq Require Import List Arith Bool ZArith Reals Lia Lra.
From Verif Require Import Scalar Outcome Linalg RSum FrameTasks ConstTraj RobotModel RobotModelR.
Import ListNotations.
Open Scope list_scope.
Open Scope nat_scope.

(** ** C51 constant trajectories *)
Theorem C51_euclidian : forall (K : num) (r : option (vec K)) ops v, Forall outside ops -> last_ref r ops = Some v -> exists s, run euc_step (euc_new r) ops = Some s /\
  (forall q, sampled q -> exists a, euc_step s (EAsk q) = Ret s (Got a) /\ constant_sample v (vlen v) a) /\
  euc_step s (EAsk QSize) = Ret s (Size (vlen v)) /\ euc_step s (EAsk QEnded) = Ret s (Ended true).
Proof. exact @euc_constant. Qed.
Print Assumptions C51_euclidian.
Theorem C51_se3 : forall (K : num) (r : option (place K)) ops M, last_place r ops = Some M -> exists s, run ConstTraj.se3_step (ConstTraj.se3_new r) ops = Some s /\
  (forall q, sampled q -> exists a v, ConstTraj.se3_step s (TAsk q) = Ret s (Got a) /\ constant_sample v 6 a /\ forall M0, exists N, se3_read v M0 = Ret N tt /\ same_place M N) /\
  ConstTraj.se3_step s (TAsk QSize) = Ret s (Size 6) /\ ConstTraj.se3_step s (TAsk QEnded) = Ret s (Ended true).
Proof. exact @se3_constant. Qed.
Print Assumptions C51_se3.
Theorem C51_default : forall (K : num) (ops : list (eop K)), Forall outside ops -> last_ref None ops = None -> exists s, run euc_step (euc_new None) ops = Some s /\
  (forall q, sampled q -> exists a, euc_step s (EAsk q) = Ret s (Got a) /\ vlen (t_val a) = 0 /\ vlen (t_der a) = 0 /\ vlen (t_sec a) = 0) /\ euc_step s (EAsk QSize) = Ret s (Size 0).
Proof. exact @euc_default. Qed.
Print Assumptions C51_default.
(** What the conditions exclude: a reference taken from the trajectory itself is erased or
    read after it was freed, and without a placement the rotation is zero. *)
Theorem C51_own_refuted : forall (K : num) (r : option (vec K)) ops v, Forall outside ops -> last_ref r ops = Some v ->
  exists s s', run euc_step (euc_new r) ops = Some s /\ euc_step s (ESetOwn 0 (vlen v)) = Ret s' Done /\ constant_sample (vzero (vlen v)) (vlen v) s'.
Proof. exact @euc_own_erased. Qed.
Print Assumptions C51_own_refuted.
Theorem C51_own_part_refuted : forall (K : num) (r : option (vec K)) ops v off len, Forall outside ops -> last_ref r ops = Some v -> off + len <= vlen v -> 0 < len < vlen v ->
  exists s, run euc_step (euc_new r) ops = Some s /\ euc_step s (ESetOwn off len) = Undef.
Proof. exact @euc_own_part. Qed.
Print Assumptions C51_own_part_refuted.
Theorem C51_se3_default_refuted : forall (K : num) ops, last_place None ops = None -> exists s, run (@ConstTraj.se3_step K) (ConstTraj.se3_new None) ops = Some s /\
  forall M0, exists N, se3_read (t_val s) M0 = Ret N tt /\ forall i j, fst N i j = n0.
Proof. exact @se3_default. Qed.
Print Assumptions C51_se3_default_refuted.
Example C51_case : last_ref None [ESet (@vzero Qnum 2); EAsk QNext; ESet (@mkVec Qnum 3 (fun _ => QArith_base.inject_Z 4)); EAsk QLast] = Some (@mkVec Qnum 3 (fun _ => QArith_base.inject_Z 4)) /\
  Forall outside [ESet (@vzero Qnum 2); EAsk QNext].
Proof. split; [reflexivity|]. repeat constructor. Qed.

(** ** C52 mass matrix *)
Theorem C52_mass : forall c nv r0 ops (D : mat Rnum), robot_new c nv = Some r0 -> Forall (mass_ok nv) ops -> square nv D ->
  let na := joints c nv in let rotor := last_rotor na (fun _ => 0%R) ops in let gear := last_gear na (fun _ => 0%R) ops in
  exists r r' M, run robot_step r0 ops = Some r /\ robot_step r (RMass D) = Ret r' (Some M) /\ square nv M /\
    forall i j, i < nv -> j < nv -> mget M i j = (mget D i j + if (i =? j) && (nv - na <=? i) then gear (i - (nv - na))%nat * gear (i - (nv - na))%nat * rotor (i - (nv - na))%nat else 0)%R.
Proof. exact mass_exact. Qed.
Print Assumptions C52_mass.
Theorem C52_positive : forall c nv r0 ops (D : mat Rnum), robot_new c nv = Some r0 -> Forall (mass_ok nv) ops -> square nv D -> symm nv (mget D) -> posdef nv (mget D) ->
  (forall i, i < joints c nv -> (0 <= last_rotor (joints c nv) (fun _ => 0%R) ops i)%R) ->
  exists r r' M, run robot_step r0 ops = Some r /\ robot_step r (RMass D) = Ret r' (Some M) /\ symm nv (mget M) /\ posdef nv (mget M).
Proof. exact mass_posdef. Qed.
Print Assumptions C52_positive.
Theorem C52_joints : forall c nv, (floating c -> 6 <= nv) -> exists r, @robot_new Rnum c nv = Some r /\ r_na r = joints c nv /\ r_nv r = nv.
Proof. exact robot_new_joints. Qed.
Print Assumptions C52_joints.
(** RobotWrapper(model) is floating too; with fewer than six coordinates an assertion fails. *)
Theorem C52_too_small : forall c nv, floating c -> nv < 6 -> @robot_new Rnum c nv = None.
Proof. exact robot_new_floating. Qed.
Print Assumptions C52_too_small.
Theorem C52_rotor_rejected : forall (r : robot Rnum) v, vlen v <> vlen (r_rotor r) -> robot_step r (RRotor v) = Exc r.
Proof. exact rotor_rejected. Qed.
Print Assumptions C52_rotor_rejected.
Theorem C52_gear_rejected : forall (r : robot Rnum) v, vlen v <> vlen (r_gear r) -> robot_step r (RGear v) = Exc r.
Proof. exact gear_rejected. Qed.
Print Assumptions C52_gear_rejected.
Theorem C52_symmetric : forall n (M : mat Rnum), symm n (mget (symmetrise M)) /\ forall i j, i <= j -> mget (symmetrise M) i j = mget M i j.
Proof. exact symmetrise_symm. Qed.
Print Assumptions C52_symmetric.
(** Without the condition on the rotor inertias, which no function checks. *)
Theorem C52_negative_refuted : ~ forall c nv r0 ops (D : mat Rnum), robot_new c nv = Some r0 -> Forall (mass_ok nv) ops -> square nv D -> symm nv (mget D) -> posdef nv (mget D) ->
  exists r r' M, run robot_step r0 ops = Some r /\ robot_step r (RMass D) = Ret r' (Some M) /\ posdef nv (mget M).
Proof. exact mass_refuted. Qed.
Print Assumptions C52_negative_refuted.
(** A floating robot with one joint; rejected and repeated calls in between. *)
Definition ex_ops : list (rop Rnum) := [RGear (@mkVec Rnum 1 (fun _ => 3%R)); RMass (@mident Rnum 7 7); RRotor (@mkVec Rnum 2 (fun _ => 9%R)); RRotor (@mkVec Rnum 1 (fun _ => 2%R)); RMass (@mident Rnum 7 7)].
Example C52_case : (exists r0, @robot_new Rnum CModel 7 = Some r0) /\ Forall (mass_ok 7) ex_ops /\ joints CModel 7 = 1 /\ last_rotor 1 (fun _ => 0%R) ex_ops 0 = 2%R /\ last_gear 1 (fun _ => 0%R) ex_ops 0 = 3%R.
Proof. split; [eexists; reflexivity|]. split; [repeat constructor|]. repeat split; reflexivity. Qed.

(** ** C69 world-oriented frame velocity *)
Theorem C69_velocity : forall z (P : se3 Rnum) (junk : nat -> R) m d idx j t, moving z -> tracks d j z -> attached m idx j P ->
  exists x, frame_velocity_world (K := Rnum) junk m (d t) idx = Ret tt x /\
    (forall i, i < 3 -> m_ang x i = mv (z_R z t) (z_w z t) i) /\
    forall i, i < 3 -> derivable_pt_lim (fun u => position_of m idx (d u) i) t (m_lin x i - cr junk (mv (z_R z t) (z_w z t)) i)%R.
Proof. exact velocity_world. Qed.
Print Assumptions C69_velocity.
(** The stated property is false because nothing makes junk zero. *)
Theorem C69_refuted : ~ forall z P (junk : nat -> R) m d idx j t, moving z -> tracks d j z -> attached m idx j P ->
  exists x, frame_velocity_world (K := Rnum) junk m (d t) idx = Ret tt x /\ forall i, i < 3 -> derivable_pt_lim (fun u => position_of m idx (d u) i) t (m_lin x i).
Proof. exact velocity_world_refuted. Qed.
Print Assumptions C69_refuted.
(** A frame at distance 1 from the axis of a turning joint. *)
Example C69_case : moving turning /\ tracks (joint_data turning) 0 turning /\ attached (one_frame ex_place) 0 0 ex_place /\ forall t, position_of (one_frame ex_place) 0 (joint_data turning t) 0 = cos t.
Proof.
  split; [exact turning_moves|]. split; [apply joint_tracks|]. split; [exact ex_attached|]. intros t. rewrite (position_value _ (joint_data turning) 0 0 turning ex_place t 0 (joint_tracks turning) ex_attached).
  unfold mv, dot_, turning, ex_place. cbn. ring.
Qed.

(** ** C70 world-oriented classic acceleration *)
Theorem C70_classic : forall z (P : se3 Rnum) (junk : nat -> R) m d idx j t, moving z -> tracks d j z -> attached m idx j P ->
  exists x, frame_classic_world (K := Rnum) junk m (d t) idx = Ret tt x /\
    (forall i, i < 3 -> m_ang x i = mv (z_R z t) (z_al z t) i) /\
    exists v : R -> nat -> R, (forall u i, i < 3 -> derivable_pt_lim (fun u => position_of m idx (d u) i) u (v u i)) /\
      forall i, i < 3 -> derivable_pt_lim (fun u => v u i) t (m_lin x i - cr junk (mv (z_R z t) (z_al z t)) i)%R.
Proof. exact classic_world. Qed.
Print Assumptions C70_classic.
Example C70_case : moving turning /\ tracks (joint_data turning) 0 turning /\ attached (one_frame ex_place) 0 0 ex_place /\ forall t, exists x, frame_classic_world (K := Rnum) zero3 (one_frame ex_place) (joint_data turning t) 0 = Ret tt x /\ m_lin x 0 = (- cos t)%R.
Proof.
  split; [exact turning_moves|]. split; [apply joint_tracks|]. split; [exact ex_attached|]. intros t. eexists. split; [reflexivity|]. unfold turning, ex_place, zero3, unit_rot. cbn. ring.
Qed.

(** ** C72 world-oriented spatial acceleration, unknown frames *)
Theorem C72_spatial : forall z (P : se3 Rnum) (junk : nat -> R) m d idx j t, moving z -> tracks d j z -> attached m idx j P -> rotation (z_R z t) ->
  exists x, frame_acceleration_world (K := Rnum) junk m (d t) idx = Ret tt x /\
    (forall i, i < 3 -> m_ang x i = mv (z_R z t) (z_al z t) i) /\
    exists v : R -> nat -> R, (forall u i, i < 3 -> derivable_pt_lim (fun u => position_of m idx (d u) i) u (v u i)) /\
      forall i, i < 3 -> derivable_pt_lim (fun u => v u i) t (m_lin x i - cr junk (mv (z_R z t) (z_al z t)) i + cr (mv (z_R z t) (z_w z t)) (v t) i)%R.
Proof. exact acceleration_world. Qed.
Print Assumptions C72_spatial.
Theorem C72_unknown : forall (m : model Rnum) (d : data Rnum) idx junk, nth_error (mo_frames m) idx = None ->
  frame_position m d idx = Exc tt /\ frame_velocity m d idx = Exc tt /\ frame_acceleration m d idx = Exc tt /\ frame_classic m d idx = Exc tt /\
  frame_velocity_world junk m d idx = Exc tt /\ frame_acceleration_world junk m d idx = Exc tt /\ frame_classic_world junk m d idx = Exc tt.
Proof. exact frame_unknown. Qed.
Print Assumptions C72_unknown.
Example C72_case : rotation (z_R turning 0%R) /\ nth_error (mo_frames (one_frame ex_place)) 1 = None.
Proof.
  split; [|reflexivity]. split.
  - intros i j Hi Hj. unfold turning. cbn [z_R]. rewrite cos_0, sin_0. destruct i as [|[|[|i]]]; [| | |lia]; (destruct j as [|[|[|j]]]; [| | |lia]); unfold dot_; cbn [Nat.eqb]; ring.
  - unfold det3, dot_, cr, turning. cbn [z_R]. rewrite cos_0, sin_0. ring.
Qed.
