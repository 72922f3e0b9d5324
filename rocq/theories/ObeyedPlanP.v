(** Feet that the ground holds, and tasks of level 0 in closed loop through formulation, solver and
    robot. *)
From Coq Require Import String List Arith Bool ZArith Reals Lia Lra.
From Verif Require Import Scalar Outcome Linalg Constraint Formulation FormSpec FormPhysSpec RSum FormMain FormSolver RobotModelR ObeyedPlan.
From Verif Require Import Masks MaskReal JointBounds JointTask JointTasks JointTasksP JointTasksR FrameTasks FrameTasksP FrameTasksR FrameRefute ContactMotion ContactMotionP LinearLoop ClosedLoop RotLoop RotLoop2 OrientLoop ContactHold.
Import ListNotations.
Open Scope list_scope.
Open Scope nat_scope.

(** * Specification *)
(** The foot of a Contact6d or ContactPoint with calls [l] is on the placement of its reference, at
    rest, and the accelerations [a] leave it at rest; [F]: what computeMotionTask returned. *)
Definition foot_of (c : constr Rnum) : mat Rnum * vec Rnum := (c_mat c, c_vec c).
Definition rests_six (log3 : rmat -> rvec) (nv : nat) (F : mat Rnum * vec Rnum) (a : nat -> R) (l : list (mop Rnum)) (d : fdata Rnum) : Prop :=
  exists name jk s0 s s1, six_new Rtrunc jk name nv = Some s0 /\ run (six_step Rtrunc log3) s0 l = Some s /\ six_step Rtrunc log3 s (MCompute d) = Ret s1 tt /\
    F = foot_of (h_c (x_h s1)) /\ proper (d_R d) /\ (forall i, i < 6 -> d_v d i = 0%R /\ accel nv (d_J d) (d_a d) a i = 0%R).
Definition rests_point (log3 : rmat -> rvec) (nv : nat) (F : mat Rnum * vec Rnum) (a : nat -> R) (l : list (mop Rnum)) (d : fdata Rnum) : Prop :=
  exists name jk jk' s0 s s1, point_new Rtrunc log3 jk jk' name nv = Some s0 /\ run (point_step Rtrunc log3) s0 l = Some s /\ point_step Rtrunc log3 s (MCompute d) = Ret s1 tt /\
    F = foot_of (h_c (x_h s1)) /\ orthogonal (d_R d) /\ (forall i, i < 3 -> d_v d i = 0%R /\ accel nv (d_J d) (d_a d) a i = 0%R).
Definition on_placement (w : wish) (d : fdata Rnum) : Prop := forall i, i < 3 -> d_p d i = u_p w i.
Definition same_axes (w : wish) (d : fdata Rnum) : Prop := forall i j, i < 3 -> j < 3 -> d_R d i j = u_R w i j.
Definition stuck (log3 : rmat -> rvec) (nv : nat) (F : mat Rnum * vec Rnum) (a : nat -> R) : Prop := exists l d,
  (rests_six log3 nv F a l d /\ on_placement (told true l) d /\ same_axes (told true l) d) \/ (rests_point log3 nv F a l d /\ on_placement (told false l) d).
Definition all_stuck (log3 : rmat -> rvec) (nv : nat) (s : fstate Rnum) (e : env Rnum) (a : nat -> R) : Prop :=
  forall c, In c (f_contacts s) -> stuck log3 nv (e_cmotion e (cl_obj c)) a.
(** One instant of the closed loop: controller, robot and ground, with the motion task [k] at level 0. *)
Definition driven (log3 : rmat -> rvec) (nv : nat) (e : env Rnum) (k : nat) (a : nat -> R) : Prop := exists dbg na M0 H0 asc s y tau w,
  controls dbg nv na M0 H0 asc e s y tau /\ posdef nv (mget (e_mass e)) /\ obeys s e tau w a /\ all_hard s /\ all_stuck log3 nv s e a /\
  exists t, In t (f_motions s) /\ tl_prio t = 0 /\ tl_task t = k.

(** * Feet *)
Lemma kind_sat (c : constr Rnum) y : c_kind c = CEq -> (sat c y <-> eq_holds (c_mat c) (c_vec c) y).
Proof. intros E. unfold sat, eq_holds, lhs. rewrite E. reflexivity. Qed.
Lemma six_kind log3 name nv jk l s0 s d s1 : six_new Rtrunc jk name nv = Some s0 -> run (six_step Rtrunc log3) s0 l = Some s -> six_step Rtrunc log3 s (MCompute d) = Ret s1 tt -> c_kind (h_c (x_h s1)) = CEq.
Proof.
  intros E0 E E1. destruct (agrees_six log3 name nv jk) as (u0 & F0 & A0). rewrite E0 in F0. injection F0 as <-.
  destruct (agrees_run log3 name nv true l no_wish s0 A0) as (u & F & A). cbn match in F. rewrite E in F. injection F as <-. apply (rows_of log3 name nv true _ s d s1 A E1).
Qed.
Lemma point_kind log3 name nv jk jk' l s0 s d s1 : point_new Rtrunc log3 jk jk' name nv = Some s0 -> run (point_step Rtrunc log3) s0 l = Some s -> point_step Rtrunc log3 s (MCompute d) = Ret s1 tt -> c_kind (h_c (x_h s1)) = CEq.
Proof.
  intros E0 E E1. destruct (agrees_point log3 name nv jk jk') as (u0 & F0 & A0). rewrite E0 in F0. injection F0 as <-.
  destruct (agrees_run log3 name nv false l no_wish s0 A0) as (u & F & A). cbn match in F. rewrite E in F. injection F as <-. apply (rows_of log3 name nv false _ s d s1 A E1).
Qed.
Lemma six_rows log3 nv F a l d : reads9 log3 -> rests_six log3 nv F a l d -> (eq_holds (fst F) (snd F) a <-> holds_frame log3 (told true l) d (accel nv (d_J d) (d_a d) a)).
Proof.
  intros HL (name & jk & s0 & s & s1 & E0 & E & E1 & -> & _). rewrite <- (kind_sat _ _ (six_kind _ _ _ _ _ _ _ _ _ E0 E E1)).
  destruct (six_history log3 HL name nv jk l) as (s0' & s2 & F0 & F & _ & _ & G). rewrite E0 in F0. injection F0 as <-. rewrite E in F. injection F as <-.
  destruct (G d) as (s3 & F' & _ & _ & M). rewrite E1 in F'. injection F' as <-. apply M.
Qed.
Lemma point_rows log3 nv F a l d : reads9 log3 -> rests_point log3 nv F a l d -> (eq_holds (fst F) (snd F) a <-> holds_point (told false l) d (accel nv (d_J d) (d_a d) a)).
Proof.
  intros HL (name & jk & jk' & s0 & s & s1 & E0 & E & E1 & -> & O & _). rewrite <- (kind_sat _ _ (point_kind _ _ _ _ _ _ _ _ _ _ E0 E E1)).
  destruct (point_history log3 HL name nv jk jk' l) as (s0' & s2 & F0 & F & _ & _ & G). rewrite E0 in F0. injection F0 as <-. rewrite E in F. injection F as <-.
  destruct (G d) as (s3 & F' & _ & _ & M). rewrite E1 in F'. injection F' as <-. apply M. intros _. exact O.
Qed.
Lemma same_rot_error log3 (A B : rmat) : reads9 log3 -> principal log3 -> proper A -> (forall i j, i < 3 -> j < 3 -> A i j = B i j) -> forall i, i < 3 -> rot_error log3 A B i = 0%R.
Proof.
  intros HL HP PA H i Hi. unfold rot_error.
  rewrite (HL _ (tr_mul A A)); [|intros p q Hp Hq; unfold tr_mul, rot, tr, dot3; rewrite !H by lia; reflexivity|exact Hi].
  assert (Z : turn_of (tr_mul A A) = 0%R) by exact (same_apart (fun _ => A) (fun _ => A) 0%R PA (fun _ _ _ _ => eq_refl)).
  assert (P : proper (tr_mul A A)) by (apply error_proper; exact PA). assert (Q := HP _ P). rewrite Z in Q. apply (Q PI_RGT_0 i Hi). reflexivity.
Qed.
Lemma placed_zero (Q : rmat) (p pd : rvec) : (forall i, i < 3 -> p i = pd i) -> forall i, i < 3 -> rot (tr Q) (vminus pd p) i = 0%R.
Proof. intros H i Hi. apply rot_zero. intros k Hk. unfold vminus. rewrite H by exact Hk. lra. Qed.
Theorem stuck_held log3 nv F a : reads9 log3 -> principal log3 -> stuck log3 nv F a -> eq_holds (fst F) (snd F) a.
Proof.
  intros HL HP (l & d & [(H & P & X)|(H & P)]).
  - apply (six_rows log3 nv F a l d HL H). destruct H as (_ & _ & _ & _ & _ & _ & _ & _ & _ & PR & Z). split; intros i Hi.
    + rewrite (proj2 (Z i ltac:(lia))), (proj1 (Z i ltac:(lia))), placed_zero by assumption. ring.
    + unfold ang at 1 2. rewrite (proj2 (Z (3 + i) ltac:(lia))), (proj1 (Z (3 + i) ltac:(lia))), same_rot_error by assumption. ring.
  - apply (point_rows log3 nv F a l d HL H). destruct H as (_ & _ & _ & _ & _ & _ & _ & _ & _ & _ & O & Z). unfold holds_point. destruct (u_local _); intros i Hi.
    + rewrite (proj2 (Z i Hi)), (proj1 (Z i Hi)), placed_zero by assumption. ring.
    + rewrite (rot_zero _ (accel nv (d_J d) (d_a d) a)), (rot_zero _ (d_v d)), (P i Hi) by (assumption || (intros k Hk; apply Z; exact Hk)). ring.
Qed.
(** A foot held somewhere else than on its placement does not do what the contact asks for. *)
Theorem off_fails log3 nv F a l d i : reads9 log3 -> i < 3 ->
  (rests_six log3 nv F a l d /\ (u_kp (told true l) i * rot (tr (d_R d)) (vminus (u_p (told true l)) (d_p d)) i <> 0)%R) \/
  (rests_point log3 nv F a l d /\ (u_kp (told false l) i * (if u_local (told false l) then rot (tr (d_R d)) (vminus (u_p (told false l)) (d_p d)) i else u_p (told false l) i - d_p d i) <> 0)%R) ->
  ~ eq_holds (fst F) (snd F) a.
Proof.
  intros HL Hi [(H & N)|(H & N)] C.
  - apply (six_rows log3 nv F a l d HL H) in C. destruct H as (_ & _ & _ & _ & _ & _ & _ & _ & _ & _ & Z). destruct C as [C _]. specialize (C i Hi).
    rewrite (proj2 (Z i ltac:(lia))), (proj1 (Z i ltac:(lia))) in C. lra.
  - apply (point_rows log3 nv F a l d HL H) in C. destruct H as (_ & _ & _ & _ & _ & _ & _ & _ & _ & _ & _ & Z). unfold holds_point in C. destruct (u_local _); specialize (C i Hi).
    + rewrite (proj2 (Z i Hi)), (proj1 (Z i Hi)) in C. lra.
    + rewrite (rot_zero _ (accel nv (d_J d) (d_a d) a)), (rot_zero _ (d_v d)) in C by (assumption || (intros k Hk; apply Z; exact Hk)). lra.
Qed.

(** * One instant *)
Theorem driven_task log3 nv e k a : reads9 log3 -> principal log3 -> driven log3 nv e k a -> sat (e_task e k) a.
Proof.
  intros HL HP (dbg & na & M0 & H0 & asc & s & y & tau & w & C & PD & O & AH & ST & t & Ht & Hp & <-).
  apply (tasks_hold dbg nv na M0 H0 asc e s y tau C w a PD O AH); [|exact Ht|exact Hp]. intros c Hc. apply (stuck_held log3 nv _ a HL HP). apply ST, Hc.
Qed.
(** The plan goes wrong when a foot is held away from its placement. *)
Theorem off_deviates dbg nv na M0 H0 asc e s y tau log3 a c l d i : reads9 log3 -> i < 3 -> controls dbg nv na M0 H0 asc e s y tau -> In c (f_contacts s) -> hard_motion s c ->
  (rests_six log3 nv (e_cmotion e (cl_obj c)) a l d /\ (u_kp (told true l) i * rot (tr (d_R d)) (vminus (u_p (told true l)) (d_p d)) i <> 0)%R) \/
  (rests_point log3 nv (e_cmotion e (cl_obj c)) a l d /\ (u_kp (told false l) i * (if u_local (told false l) then rot (tr (d_R d)) (vminus (u_p (told false l)) (d_p d)) i else u_p (told false l) i - d_p d i) <> 0)%R) ->
  exists j, j < nv /\ a j <> vget y j.
Proof.
  intros HL Hi C Hc Hh H. assert (N := off_fails log3 nv _ a l d i HL Hi H). destruct (control_facts _ _ _ _ _ _ _ _ _ _ C) as (Ph & _ & _ & _ & Sz & _).
  assert (Y := ph_motion _ _ _ Ph c Hc Hh). destruct (Sz c Hc) as (Cn & _ & _). unfold foot_mat in Cn.
  assert (D : forall n, (exists j, j < n /\ a j <> vget y j) \/ (forall j, j < n -> a j = vget y j)).
  { induction n as [|n [(j & Hj & X)|IH]]; [right; lia|left; exists j; split; [lia|exact X]|].
    destruct (Req_dec (a n) (vget y n)) as [E|E]; [right; intros j Hj; destruct (Nat.eq_dec j n) as [->|]; [exact E|apply IH; lia]|left; exists n; split; [lia|exact E]]. }
  destruct (D nv) as [X|X]; [exact X|]. exfalso. apply N. intros r Hr. rewrite <- (Y r Hr), Cn. apply rsum_ext. intros j Hj. rewrite X by exact Hj. reflexivity.
Qed.

(** * Closed loops *)
Section Loops.
Variable log3 : rmat -> rvec.
Hypothesis HL : reads9 log3.
Hypothesis HP : principal log3.
Theorem driven_com kp kd : (0 < kp -> 0 < kd -> exists c r, 0 < r /\
  forall name nv k i (s s' : R -> comt Rnum) (d : R -> cdata Rnum) (e : R -> env Rnum) (a : R -> nat -> R), (i < 3)%nat ->
    (forall t, 0 <= t -> driven log3 nv (e t) k (a t) /\ @com_made Rnum Rtrunc name nv (s t) /\ on (z_mask (s t)) i /\ z_kp (s t) i = kp /\ z_kd (s t) i = kd /\
       com_step Rtrunc (s t) (ZCompute (d t)) = Ret (s' t) tt /\ e_task (e t) k = h_c (z_h (s' t))) ->
    twice (fun t => g_p (d t) i) (fun t => g_v (d t) i) (fun t => accel nv (g_J (d t)) (g_a (d t)) (a t) i) ->
    twice (fun t => vget (z_val (s t)) i) (fun t => vget (z_der (s t)) i) (fun t => vget (z_sec (s t)) i) ->
    decays c r (fun t => g_p (d t) i - vget (z_val (s t)) i) (fun t => g_v (d t) i - vget (z_der (s t)) i))%R.
Proof.
  intros P D. destruct (com_converges kp kd P D) as (c & r & R0 & H). exists c, r. split; [exact R0|]. intros name nv k i s s' d e a Hi L. apply (H name nv i s s' d a Hi).
  intros t Ht. destruct (L t Ht) as (Dr & M & O & K1 & K2 & St & Et). repeat (split; [assumption|]). rewrite <- Et. apply (driven_task log3 nv); assumption.
Qed.
Theorem driven_posture kp kd : (0 < kp -> 0 < kd -> exists c r, 0 < r /\
  forall dif name neu nv na k i (s s' : R -> post Rnum) (q v : R -> vec Rnum) (e : R -> env Rnum) (a : R -> nat -> R),
    respects dif -> (na <= nv)%nat -> (na <= vlen neu)%nat -> (i < na)%nat -> plain_joint dif (vlen neu) nv na i ->
    (forall t, 0 <= t -> driven log3 nv (e t) k (a t) /\ tmade Rtrunc dif name neu na nv na (s t) /\ active (t_mask (s t)) i /\ vget (t_kp (s t)) i = kp /\ vget (t_kd (s t)) i = kd /\
       post_step Rtrunc dif (s t) (TCompute (q t) (v t)) = Ret (s' t) tt /\ e_task (e t) k = t_c (s' t)) ->
    twice (fun t => vget (q t) (vlen neu - na + i)) (fun t => last_of na (v t) i) (fun t => a t (nv - na + i)%nat) ->
    twice (fun t => vget (t_val (s t)) i) (fun t => vget (t_der (s t)) i) (fun t => vget (t_sec (s t)) i) ->
    decays c r (fun t => vget (q t) (vlen neu - na + i) - vget (t_val (s t)) i) (fun t => last_of na (v t) i - vget (t_der (s t)) i))%R.
Proof.
  intros P D. destruct (posture_converges kp kd P D) as (c & r & R0 & H). exists c, r. split; [exact R0|]. intros dif name neu nv na k i s s' q v e a HD H1 H2 Hi PJ L. apply (H dif name neu nv na i s s' q v a HD H1 H2 Hi PJ).
  intros t Ht. destruct (L t Ht) as (Dr & M & O & K1 & K2 & St & Et). repeat (split; [assumption|]). rewrite <- Et. apply (driven_task log3 nv); assumption.
Qed.
Theorem driven_frame kp kd : (0 < kp -> 0 < kd -> exists c r, 0 < r /\
  forall name nv k i (s s' : R -> se3t Rnum) (d : R -> fdata Rnum) (e : R -> env Rnum) (a : R -> nat -> R), (i < 3)%nat ->
    (forall t, 0 <= t -> driven log3 nv (e t) k (a t) /\ @se3_made Rnum Rtrunc log3 name nv (s t) /\ x_local (s t) = false /\ orthogonal (d_R (d t)) /\ on (x_mask (s t)) i /\
       vget (x_kp (s t)) i = kp /\ vget (x_kd (s t)) i = kd /\
       @se3_step Rnum Rtrunc log3 (s t) (XCompute (d t)) = Ret (s' t) tt /\ e_task (e t) k = h_c (x_h (s' t))) ->
    twice (fun t => d_p (d t) i) (fun t => rot (d_R (d t)) (d_v (d t)) i) (fun t => rot (d_R (d t)) (accel nv (d_J (d t)) (d_a (d t)) (a t)) i) ->
    twice (fun t => x_pd (s t) i) (fun t => x_vd (s t) i) (fun t => x_ad (s t) i) ->
    decays c r (fun t => d_p (d t) i - x_pd (s t) i) (fun t => rot (d_R (d t)) (d_v (d t)) i - x_vd (s t) i))%R.
Proof.
  intros P D. destruct (frame_world_converges kp kd P D) as (c & r & R0 & H). exists c, r. split; [exact R0|]. intros name nv k i s s' d e a Hi L. apply (H log3 HL name nv i s s' d a Hi).
  intros t Ht. destruct (L t Ht) as (Dr & M & XL & O & X & K1 & K2 & St & Et). repeat (split; [assumption|]). rewrite <- Et. apply (driven_task log3 nv); assumption.
Qed.
End Loops.
