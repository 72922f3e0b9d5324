(** What the task constraints do when the commanded acceleration is applied to the robot: the
    tracking errors of the motion tasks in closed loop, in continuous and in sampled time. *)
From Coq Require Import String List Arith Bool ZArith Reals Lia Lra.
From Verif Require Import Scalar Outcome Linalg Constraint FormPhysSpec RSum Masks MaskReal JointBounds JointTask JointTasks JointTasksP JointTasksR
  FrameTasks FrameTasksP FrameTasksR LinearLoop.
Import ListNotations.
Open Scope nat_scope.

(** * Exponential convergence *)
(** Error e and its rate d shrink from any start, with fixed constants. *)
Definition decays (c r : R) (e d : R -> R) : Prop := (forall t, 0 <= t ->
  Rabs (e t) <= c * (Rabs (e 0) + Rabs (d 0)) * exp (- r * t) /\ Rabs (d t) <= c * (Rabs (e 0) + Rabs (d 0)) * exp (- r * t))%R.
Lemma sqr_bound (x m : R) : (0 <= m -> x * x <= m * m -> Rabs x <= m)%R.
Proof.
  intros Hm H. assert (E : (Rabs x * Rabs x = x * x)%R) by (rewrite <- Rabs_mult; apply Rabs_right, Rle_ge, Rle_0_sqr).
  assert (0 <= Rabs x)%R by apply Rabs_pos. nra.
Qed.
Lemma pd_decays kp kd : (0 < kp -> 0 < kd -> exists c r, 0 < r /\ 0 <= c /\ forall e d, pd_motion kp kd e d -> decays c r e d)%R.
Proof.
  intros P D. exists (1 + (6 + 5 * kp) + (6 + 5 * kp) / kp)%R, (pd_rate kp kd / 2)%R.
  assert (K : (0 <= (6 + 5 * kp) / kp)%R) by (apply Rmult_le_pos; [lra|left; apply Rinv_0_lt_compat; exact P]).
  split; [assert (H := pd_rate_pos kp kd P D); lra|]. split; [lra|]. intros e d M t Ht.
  assert (H := pd_decay kp kd e d P D M t Ht). set (r := pd_rate kp kd) in *.
  set (g := exp (- (r / 2) * t)). assert (G : exp (- r * t) = (g * g)%R) by (unfold g; rewrite <- exp_plus; apply f_equal; field).
  assert (G0 : (0 < g)%R) by apply exp_pos. rewrite G in H.
  assert (A1 : (Rabs (e 0) * Rabs (e 0) = e 0 * e 0)%R) by (rewrite <- Rabs_mult; apply Rabs_right, Rle_ge, Rle_0_sqr).
  assert (A2 : (Rabs (d 0) * Rabs (d 0) = d 0 * d 0)%R) by (rewrite <- Rabs_mult; apply Rabs_right, Rle_ge, Rle_0_sqr).
  set (x := Rabs (e 0%R)) in *. set (y := Rabs (d 0%R)) in *. assert (X : (0 <= x)%R) by apply Rabs_pos. assert (Y : (0 <= y)%R) by apply Rabs_pos.
  rewrite <- A1, <- A2 in H. set (m := (6 + 5 * kp)%R) in *. assert (M0 : (6 <= m)%R) by (unfold m; lra).
  assert (B : (3 / 2 * (y * y) + 5 / 3 * kp * (x * x) <= m / 3 * ((x + y) * (x + y)))%R).
  { assert (0 <= x * x)%R by apply Rle_0_sqr. assert (0 <= y * y)%R by apply Rle_0_sqr. assert (0 <= x * y)%R by (apply Rmult_le_pos; assumption).
    assert (0 <= kp * (y * y))%R by (apply Rmult_le_pos; lra). assert (0 <= kp * (x * y))%R by (apply Rmult_le_pos; lra). unfold m. lra. }
  assert (GG : (0 <= g * g)%R) by nra.
  assert (C : (d t * d t / 2 + kp * (e t * e t) / 3 <= m / 3 * ((x + y) * g * ((x + y) * g)))%R).
  { apply Rle_trans with (1 := H). replace (m / 3 * ((x + y) * g * ((x + y) * g)))%R with (m / 3 * ((x + y) * (x + y)) * (g * g))%R by ring. apply Rmult_le_compat_r; assumption. }
  set (z := ((x + y) * g)%R) in *. assert (Z : (0 <= z)%R) by (unfold z; nra).
  replace ((1 + m + m / kp) * (x + y) * g)%R with ((1 + m + m / kp) * z)%R by (unfold z; ring).
  assert (E0 : (0 <= e t * e t)%R) by apply Rle_0_sqr. assert (D0 : (0 <= d t * d t)%R) by apply Rle_0_sqr. assert (ZZ : (0 <= z * z)%R) by nra.
  split; apply sqr_bound.
  - apply Rmult_le_pos; lra.
  - assert (Q : (e t * e t <= m / kp * (z * z))%R).
    { apply Rmult_le_reg_l with kp; [exact P|]. replace (kp * (m / kp * (z * z)))%R with (m * (z * z))%R by (field; lra). nra. }
    set (w := (m / kp)%R) in *. apply Rle_trans with (1 := Q). replace ((1 + m + w) * z * ((1 + m + w) * z))%R with ((1 + m + w) * (1 + m + w) * (z * z))%R by ring.
    apply Rmult_le_compat_r; [exact ZZ|]. nra.
  - apply Rmult_le_pos; lra.
  - assert (Q : (d t * d t <= m * (z * z))%R).
    { assert (kp * (e t * e t) >= 0)%R by (apply Rle_ge, Rmult_le_pos; lra). nra. }
    set (w := (m / kp)%R) in *. apply Rle_trans with (1 := Q). replace ((1 + m + w) * z * ((1 + m + w) * z))%R with ((1 + m + w) * (1 + m + w) * (z * z))%R by ring.
    apply Rmult_le_compat_r; [exact ZZ|]. nra.
Qed.
(** The value at one time of a signal with first derivative x1 and second derivative x2. *)
Definition twice (x x1 : R -> R) (x2 : R -> R) : Prop := forall t, (0 <= t)%R -> derivable_pt_lim x t (x1 t) /\ derivable_pt_lim x1 t (x2 t).
Lemma tracking_motion kp kd x x1 x2 r r1 r2 : twice x x1 x2 -> twice r r1 r2 ->
  (forall t, (0 <= t)%R -> x2 t = (kp * (r t - x t) + kd * (r1 t - x1 t) + r2 t)%R) ->
  pd_motion kp kd (fun t => x t - r t)%R (fun t => x1 t - r1 t)%R.
Proof.
  intros X Y L t Ht. destruct (X t Ht) as [X1 X2], (Y t Ht) as [Y1 Y2]. split; (eapply deriv_val; [apply deriv_minus; eassumption|]); [reflexivity|].
  rewrite (L t Ht). cbv beta. ring.
Qed.

(** * Posture task *)
Section Posture.
Variable dif : pdif.
Local Notation made := (tmade Rtrunc dif).
Local Notation step := (post_step Rtrunc dif).
(** pinocchio::difference on a joint whose configuration is a number (prismatic, revolute):
    joint i of the last na; configurations have nq entries. *)
Definition plain_joint (nq nv na i : nat) : Prop := forall a q, vlen a = nq -> vlen q = nq -> dif a q (nv - na + i) = (vget q (nq - na + i) - vget a (nq - na + i))%R.
Lemma ref_entry (neu val : vec Rnum) i : i < vlen val -> vlen val <= vlen neu -> vget (ref_config neu val) (vlen neu - vlen val + i) = vget val i.
Proof.
  intros Hi Hn. unfold ref_config. cbn [vget]. replace (_ <? _) with false by (symmetry; apply Nat.ltb_ge; lia). f_equal. lia.
Qed.
Lemma post_sizes name neu na nv s q v s' : na <= nv -> na <= vlen neu -> made name neu na nv na s -> step s (TCompute q v) = Ret s' tt ->
  vlen q = vlen neu /\ vlen (t_val s) = na.
Proof.
  intros Hn Hq Hm E. assert (I := tmade_inv Rtrunc dif good_ones_R _ _ _ _ _ _ Hn Hq Hm). split; [|apply I].
  cbn [post_step] in E. unfold post_compute in E. destruct I as [I1 I2 I3 I4 _ _ _ _ _ _ _ _ _ _ _ _].
  destruct (if t_nqa s <=? _ then _ else _); [|discriminate]. destruct (vlen q =? t_nq s) eqn:EQ; [|discriminate]. apply Nat.eqb_eq in EQ. congruence.
Qed.
Lemma post_law name neu nv na i s q v s' y : respects dif -> na <= nv -> na <= vlen neu -> i < na -> plain_joint (vlen neu) nv na i ->
  made name neu na nv na s -> step s (TCompute q v) = Ret s' tt -> sat (t_c s') y -> active (t_mask s) i ->
  y (nv - na + i) = (vget (t_kp s) i * (vget (t_val s) i - vget q (vlen neu - na + i)%nat) + vget (t_kd s) i * (vget (t_der s) i - last_of na v i) + vget (t_sec s) i)%R.
Proof.
  intros HD Hn Hq Hi HP Hm E HS HA. destruct (post_sizes _ _ _ _ _ _ _ _ Hn Hq Hm E) as [Lq Lv].
  rewrite (proj1 (post_meaning dif _ _ _ _ _ _ _ _ _ HD Hn Hq Hm E y) HS i Hi HA).
  rewrite HP by (try assumption; reflexivity). assert (RE := ref_entry neu (t_val s) i). rewrite Lv in RE. rewrite RE by lia. unfold Rnum; cbn. ring.
Qed.
End Posture.

(** Closed loop in continuous time: at every time some made task is computed at the current
    state, the acceleration satisfies its constraint, and the robot moves accordingly. *)
Theorem posture_converges kp kd : (0 < kp -> 0 < kd -> exists c r, 0 < r /\
  forall dif name neu nv na i (s s' : R -> post Rnum) (q v : R -> vec Rnum) (y : R -> nat -> R),
    respects dif -> (na <= nv)%nat -> (na <= vlen neu)%nat -> (i < na)%nat -> plain_joint dif (vlen neu) nv na i ->
    (forall t, 0 <= t -> tmade Rtrunc dif name neu na nv na (s t) /\ active (t_mask (s t)) i /\ vget (t_kp (s t)) i = kp /\ vget (t_kd (s t)) i = kd /\
       post_step Rtrunc dif (s t) (TCompute (q t) (v t)) = Ret (s' t) tt /\ sat (t_c (s' t)) (y t)) ->
    twice (fun t => vget (q t) (vlen neu - na + i)) (fun t => last_of na (v t) i) (fun t => y t (nv - na + i)%nat) ->
    twice (fun t => vget (t_val (s t)) i) (fun t => vget (t_der (s t)) i) (fun t => vget (t_sec (s t)) i) ->
    decays c r (fun t => vget (q t) (vlen neu - na + i) - vget (t_val (s t)) i) (fun t => last_of na (v t) i - vget (t_der (s t)) i))%R.
Proof.
  intros P D. destruct (pd_decays kp kd P D) as (c & r & R0 & _ & H). exists c, r. split; [exact R0|].
  intros dif name neu nv na i s s' q v y HD Hn Hq Hi HP L Q V. apply H. eapply tracking_motion; [exact Q|exact V|].
  intros t Ht. destruct (L t Ht) as (M & A & KP & KD & E & HS).
  rewrite (post_law dif _ _ _ _ _ _ _ _ _ _ HD Hn Hq Hi HP M E HS A), KP, KD. reflexivity.
Qed.
(** With critical damping the error is known exactly. *)
Theorem posture_critical w dif name neu nv na i (s s' : R -> post Rnum) (q v : R -> vec Rnum) (y : R -> nat -> R) :
    respects dif -> na <= nv -> na <= vlen neu -> i < na -> plain_joint dif (vlen neu) nv na i ->
    (forall t, (0 <= t)%R -> tmade Rtrunc dif name neu na nv na (s t) /\ active (t_mask (s t)) i /\ vget (t_kp (s t)) i = (w * w)%R /\ vget (t_kd (s t)) i = (2 * w)%R /\
       post_step Rtrunc dif (s t) (TCompute (q t) (v t)) = Ret (s' t) tt /\ sat (t_c (s' t)) (y t)) ->
    twice (fun t => vget (q t) (vlen neu - na + i)) (fun t => last_of na (v t) i) (fun t => y t (nv - na + i)) ->
    twice (fun t => vget (t_val (s t)) i) (fun t => vget (t_der (s t)) i) (fun t => vget (t_sec (s t)) i) ->
    let e t := (vget (q t) (vlen neu - na + i)%nat - vget (t_val (s t)) i)%R in let d t := (last_of na (v t) i - vget (t_der (s t)) i)%R in
    forall t, (0 <= t)%R -> e t = ((e 0 + (d 0 + w * e 0) * t) * exp (- w * t))%R.
Proof.
  intros HD Hn Hq Hi HP L Q V e d. apply pd_critical. eapply tracking_motion; [exact Q|exact V|].
  intros t Ht. destruct (L t Ht) as (M & A & KP & KD & E & HS).
  rewrite (post_law dif _ _ _ _ _ _ _ _ _ _ HD Hn Hq Hi HP M E HS A), KP, KD. reflexivity.
Qed.
(** Centre of mass: pinocchio's velocity is the derivative of the position and J y plus the
    acceleration at zero y is its second derivative. *)
Theorem com_converges kp kd : (0 < kp -> 0 < kd -> exists c r, 0 < r /\
  forall name nv i (s s' : R -> comt Rnum) (d : R -> cdata Rnum) (y : R -> nat -> R), (i < 3)%nat ->
    (forall t, 0 <= t -> @com_made Rnum Rtrunc name nv (s t) /\ on (z_mask (s t)) i /\ z_kp (s t) i = kp /\ z_kd (s t) i = kd /\
       com_step Rtrunc (s t) (ZCompute (d t)) = Ret (s' t) tt /\ sat (h_c (z_h (s' t))) (y t)) ->
    twice (fun t => g_p (d t) i) (fun t => g_v (d t) i) (fun t => accel nv (g_J (d t)) (g_a (d t)) (y t) i) ->
    twice (fun t => vget (z_val (s t)) i) (fun t => vget (z_der (s t)) i) (fun t => vget (z_sec (s t)) i) ->
    decays c r (fun t => g_p (d t) i - vget (z_val (s t)) i) (fun t => g_v (d t) i - vget (z_der (s t)) i))%R.
Proof.
  intros P D. destruct (pd_decays kp kd P D) as (c & r & R0 & _ & H). exists c, r. split; [exact R0|].
  intros name nv i s s' d y Hi L Q V. apply H. eapply tracking_motion; [exact Q|exact V|].
  intros t Ht. destruct (L t Ht) as (M & A & KP & KD & E & HS).
  rewrite (proj1 (com_meaning _ _ _ _ _ M E (y t)) HS i Hi A), KP, KD. reflexivity.
Qed.
(** Angular momentum: first order, the error is known exactly. *)
Theorem am_converges kp : forall name nv i (s s' : R -> amt Rnum) (v : R -> vec Rnum) (d : R -> adata Rnum) (y : R -> nat -> R), i < 3 ->
    (forall t, (0 <= t)%R -> @am_made Rnum name nv (s t) /\ o_kp (s t) i = kp /\ am_step (s t) (OCompute (v t) (d t)) = Ret (s' t) tt /\ sat (o_c (s' t)) (y t)) ->
    (forall t, (0 <= t)%R -> derivable_pt_lim (fun u => am_momentum nv (am_J (d u)) (vget (v u)) i) t (accel nv (am_J (d t)) (am_d (d t)) (y t) i)) ->
    (forall t, (0 <= t)%R -> derivable_pt_lim (fun u => vget (o_val (s u)) i) t (vget (o_der (s t)) i)) ->
    forall t, (0 <= t)%R -> (am_momentum nv (am_J (d t)) (vget (v t)) i - vget (o_val (s t)) i =
      (am_momentum nv (am_J (d 0)) (vget (v 0)) i - vget (o_val (s 0)) i) * exp (- kp * t))%R.
Proof.
  intros name nv i s s' v d y Hi L Q V. apply (first_order kp (fun t => am_momentum nv (am_J (d t)) (vget (v t)) i - vget (o_val (s t)) i)%R).
  intros t Ht. destruct (L t Ht) as (M & KP & E & HS). eapply deriv_val; [apply deriv_minus; [apply Q|apply V]; exact Ht|].
  rewrite (proj1 (am_meaning _ _ _ _ _ _ M E (y t)) HS i Hi), KP. cbv beta. ring.
Qed.
(** Position of a frame, axes of the world. *)
Theorem frame_world_converges kp kd : (0 < kp -> 0 < kd -> exists c r, 0 < r /\
  forall log3, reads9 log3 -> forall name nv i (s s' : R -> se3t Rnum) (d : R -> fdata Rnum) (y : R -> nat -> R), (i < 3)%nat ->
    (forall t, 0 <= t -> @se3_made Rnum Rtrunc log3 name nv (s t) /\ x_local (s t) = false /\ orthogonal (d_R (d t)) /\ on (x_mask (s t)) i /\
       vget (x_kp (s t)) i = kp /\ vget (x_kd (s t)) i = kd /\
       @se3_step Rnum Rtrunc log3 (s t) (XCompute (d t)) = Ret (s' t) tt /\ sat (h_c (x_h (s' t))) (y t)) ->
    twice (fun t => d_p (d t) i) (fun t => rot (d_R (d t)) (d_v (d t)) i) (fun t => rot (d_R (d t)) (accel nv (d_J (d t)) (d_a (d t)) (y t)) i) ->
    twice (fun t => x_pd (s t) i) (fun t => x_vd (s t) i) (fun t => x_ad (s t) i) ->
    decays c r (fun t => d_p (d t) i - x_pd (s t) i) (fun t => rot (d_R (d t)) (d_v (d t)) i - x_vd (s t) i))%R.
Proof.
  intros P D. destruct (pd_decays kp kd P D) as (c & r & R0 & _ & H). exists c, r. split; [exact R0|].
  intros log3 HL name nv i s s' d y Hi L Q V. apply H. eapply tracking_motion; [exact Q|exact V|].
  intros t Ht. destruct (L t Ht) as (M & XL & O & A & KP & KD & E & HS).
  assert (W := proj1 (proj1 (se3_meaning_world log3 HL _ _ _ _ _ M XL O E (y t)) HS) i Hi A). unfold world_lin in W. rewrite KP, KD in W. exact W.
Qed.
(** Axes of the frame: the same if the three translational gains are equal and no component is
    masked. *)
Theorem frame_local_converges kp kd : (0 < kp -> 0 < kd -> exists c r, 0 < r /\
  forall log3, reads9 log3 -> forall name nv (s s' : R -> se3t Rnum) (d : R -> fdata Rnum) (y : R -> nat -> R),
    (forall t, 0 <= t -> @se3_made Rnum Rtrunc log3 name nv (s t) /\ x_local (s t) = true /\ orthogonal (d_R (d t)) /\
       (forall i, (i < 3)%nat -> on (x_mask (s t)) i /\ vget (x_kp (s t)) i = kp /\ vget (x_kd (s t)) i = kd) /\
       @se3_step Rnum Rtrunc log3 (s t) (XCompute (d t)) = Ret (s' t) tt /\ sat (h_c (x_h (s' t))) (y t)) ->
    (forall i, (i < 3)%nat -> twice (fun t => d_p (d t) i) (fun t => rot (d_R (d t)) (d_v (d t)) i) (fun t => rot (d_R (d t)) (accel nv (d_J (d t)) (d_a (d t)) (y t)) i)) ->
    (forall i, (i < 3)%nat -> twice (fun t => x_pd (s t) i) (fun t => x_vd (s t) i) (fun t => x_ad (s t) i)) ->
    forall i, (i < 3)%nat -> decays c r (fun t => d_p (d t) i - x_pd (s t) i) (fun t => rot (d_R (d t)) (d_v (d t)) i - x_vd (s t) i))%R.
Proof.
  intros P D. destruct (pd_decays kp kd P D) as (c & r & R0 & _ & H). exists c, r. split; [exact R0|].
  intros log3 HL name nv s s' d y L Q V i Hi. apply H. eapply tracking_motion; [exact (Q i Hi)|exact (V i Hi)|].
  intros t Ht. destruct (L t Ht) as (M & XL & O & G & E & HS).
  destruct (proj1 (se3_meaning_local log3 HL _ _ _ _ _ M XL E (y t)) HS) as [LIN _]. unfold local_lin in LIN.
  set (a := accel nv (d_J (d t)) (d_a (d t)) (y t)) in *.
  assert (LA : forall k, k < 3 -> a k = (kp * rot (tr (d_R (d t))) (vminus (x_pd (s t)) (d_p (d t))) k + kd * (rot (tr (d_R (d t))) (x_vd (s t)) k - d_v (d t) k) + rot (tr (d_R (d t))) (x_ad (s t)) k)%R).
  { intros k Hk. destruct (G k Hk) as (A & KP & KD). rewrite (LIN k Hk A), KP, KD. reflexivity. }
  assert (RL : forall x, rot (d_R (d t)) (rot (tr (d_R (d t))) x) i = x i) by (intros x; apply (O x i Hi)).
  assert (W : rot (d_R (d t)) a i = (kp * rot (d_R (d t)) (rot (tr (d_R (d t))) (vminus (x_pd (s t)) (d_p (d t)))) i
     + kd * (rot (d_R (d t)) (rot (tr (d_R (d t))) (x_vd (s t))) i - rot (d_R (d t)) (d_v (d t)) i) + rot (d_R (d t)) (rot (tr (d_R (d t))) (x_ad (s t))) i)%R).
  { generalize (rot (tr (d_R (d t))) (vminus (x_pd (s t)) (d_p (d t)))) (rot (tr (d_R (d t))) (x_vd (s t))) (rot (tr (d_R (d t))) (x_ad (s t))) LA.
    intros u1 u2 u3 LL. unfold rot. rewrite (LL 0), (LL 1), (LL 2) by lia. ring. }
  rewrite W, !RL. unfold vminus. reflexivity.
Qed.
(** Relative position of two frames. *)
Theorem two_frames_converge kp kd : (0 < kp -> 0 < kd -> exists c r, 0 < r /\
  forall log3, reads9 log3 -> forall name nv i (s s' : R -> tft Rnum) (d1 d2 : R -> fdata Rnum) (y : R -> nat -> R), (i < 3)%nat ->
    (forall t, 0 <= t -> @tf_made Rnum Rtrunc log3 name nv (s t) /\ orthogonal (d_R (d1 t)) /\ on (y_mask (s t)) i /\
       vget (y_kp (s t)) i = kp /\ vget (y_kd (s t)) i = kd /\
       @tf_step Rnum Rtrunc log3 (s t) (YCompute (d1 t) (d2 t)) = Ret (s' t) tt /\ sat (h_c (y_h (s' t))) (y t)) ->
    twice (fun t => d_p (d1 t) i) (fun t => rot (d_R (d1 t)) (d_v (d1 t)) i) (fun t => rot (d_R (d1 t)) (accel nv (d_J (d1 t)) (d_a (d1 t)) (y t)) i) ->
    twice (fun t => d_p (d2 t) i) (fun t => rot (d_R (d2 t)) (d_v (d2 t)) i) (fun t => rot (d_R (d2 t)) (accel nv (d_J (d2 t)) (d_a (d2 t)) (y t)) i) ->
    decays c r (fun t => d_p (d1 t) i - d_p (d2 t) i) (fun t => rot (d_R (d1 t)) (d_v (d1 t)) i - rot (d_R (d2 t)) (d_v (d2 t)) i))%R.
Proof.
  intros P D. destruct (pd_decays kp kd P D) as (c & r & R0 & _ & H). exists c, r. split; [exact R0|].
  intros log3 HL name nv i s s' d1 d2 y Hi L Q V. apply H. eapply tracking_motion; [exact Q|exact V|].
  intros t Ht. destruct (L t Ht) as (M & O & A & KP & KD & E & HS).
  assert (W := proj1 (proj1 (tf_meaning log3 HL _ _ _ _ _ _ M O E (y t)) HS) i Hi A). rewrite KP, KD in W. lra.
Qed.

(** * Sampled time *)
(** One step of the integrators of the examples. The loop of the tutorials
    (exercizes/tsid_biped.py:213-217, tsid_manipulator.py:111-115): mean velocity. *)
Definition mean_step (dt x v a : R) : R := (x + dt * (v + dt / 2 * a))%R.
(** The loop of the unit tests (tests/tasks.cpp:97-98, tests/tsid-formulation.cpp:301-302):
    the velocity is updated first. *)
Definition last_step (dt x v a : R) : R := (x + dt * (v + dt * a))%R.
(** e and d are the error and the velocity of joint i of some robot controlled by a posture
    task with a fixed reference at rest, sample after sample. *)
Definition sampled (intg : R -> R -> R -> R -> R) (dt kp kd : R) (e d : nat -> R) : Prop :=
  exists dif name neu nv na i (s s' : nat -> post Rnum) (q v : nat -> vec Rnum) (y : nat -> nat -> R) ref,
    respects dif /\ na <= nv /\ na <= vlen neu /\ i < na /\ plain_joint dif (vlen neu) nv na i /\
    forall n, tmade Rtrunc dif name neu na nv na (s n) /\ active (t_mask (s n)) i /\ vget (t_kp (s n)) i = kp /\ vget (t_kd (s n)) i = kd /\
      vget (t_val (s n)) i = ref /\ vget (t_der (s n)) i = 0%R /\ vget (t_sec (s n)) i = 0%R /\
      post_step Rtrunc dif (s n) (TCompute (q n) (v n)) = Ret (s' n) tt /\ sat (t_c (s' n)) (y n) /\
      vget (q (S n)) (vlen neu - na + i) = intg dt (vget (q n) (vlen neu - na + i)) (last_of na (v n) i) (y n (nv - na + i)) /\
      last_of na (v (S n)) i = (last_of na (v n) i + dt * y n (nv - na + i)%nat)%R /\
      e n = (vget (q n) (vlen neu - na + i)%nat - ref)%R /\ d n = last_of na (v n) i.
Lemma sampled_mean dt kp kd e d : sampled mean_step dt kp kd e d ->
  iterates (1 - kp * dt * dt / 2) (dt - kd * dt * dt / 2) (- kp * dt) (1 - kd * dt) e d.
Proof.
  intros (dif & name & neu & nv & na & i & s & s' & q & v & y & ref & HD & Hn & Hq & Hi & HP & L) n.
  destruct (L n) as (M & A & KP & KD & RV & RD & RS & E & HS & IQ & IV & EE & DD). destruct (L (S n)) as (_ & _ & _ & _ & _ & _ & _ & _ & _ & _ & _ & EE' & DD').
  assert (W := post_law dif _ _ _ _ _ _ _ _ _ _ HD Hn Hq Hi HP M E HS A). rewrite KP, KD, RV, RD, RS in W.
  rewrite EE', DD', IQ, IV, W, EE, DD. unfold mean_step. split; lra.
Qed.
Lemma sampled_last dt kp kd e d : sampled last_step dt kp kd e d ->
  iterates (1 - kp * dt * dt) (dt - kd * dt * dt) (- kp * dt) (1 - kd * dt) e d.
Proof.
  intros (dif & name & neu & nv & na & i & s & s' & q & v & y & ref & HD & Hn & Hq & Hi & HP & L) n.
  destruct (L n) as (M & A & KP & KD & RV & RD & RS & E & HS & IQ & IV & EE & DD). destruct (L (S n)) as (_ & _ & _ & _ & _ & _ & _ & _ & _ & _ & _ & EE' & DD').
  assert (W := post_law dif _ _ _ _ _ _ _ _ _ _ HD Hn Hq Hi HP M E HS A). rewrite KP, KD, RV, RD, RS in W.
  rewrite EE', DD', IQ, IV, W, EE, DD. unfold last_step. split; lra.
Qed.
(** A robot with one prismatic joint follows every orbit. *)
Definition dif1 : pdif := fun a q i => if i <? vlen a then (vget q i - vget a i)%R else 0%R.
Lemma respects_dif1 : respects dif1.
Proof. intros a b q i [L H]. unfold dif1. rewrite L. destruct (i <? vlen b) eqn:E; [|reflexivity]. rewrite H; [reflexivity|]. rewrite L. apply Nat.ltb_lt. exact E. Qed.
Lemma plain_dif1 : plain_joint dif1 1 1 1 0.
Proof. intros a q Ha Hq. unfold dif1. rewrite Ha. cbn. reflexivity. Qed.
Definition one (x : R) : vec Rnum := @mkVec Rnum 1 (fun _ => x).
Lemma one_joint name kp kd : exists s : post Rnum, tmade Rtrunc dif1 name (vzero 1) 1 1 1 s /\ active (t_mask s) 0 /\ vget (t_kp s) 0 = kp /\ vget (t_kd s) 0 = kd /\
  vget (t_val s) 0 = 0%R /\ vget (t_der s) 0 = 0%R /\ vget (t_sec s) 0 = 0%R.
Proof.
  destruct (post_new_ok Rtrunc good_ones_R (fun _ => 0) name (vzero 1) 1 1 1) as (s0 & E0 & I & MK); [lia|cbn; lia|].
  assert (M0 : tmade Rtrunc dif1 name (vzero 1) 1 1 1 s0) by (exists (fun _ => 0), s0; split; [exact E0|apply reach_init]).
  destruct (post_setters Rtrunc dif1 good_ones_R name (vzero 1) 1 1 1 s0 ltac:(lia) ltac:(cbn; lia) M0) as (A & _).
  destruct (proj1 (A (one kp)) eq_refl) as (s1 & E1 & S1).
  assert (M1 : tmade Rtrunc dif1 name (vzero 1) 1 1 1 s1).
  { destruct M0 as (jk & s00 & EE & RR). exists jk, s00. split; [exact EE|]. eapply reach_step with (o := TKp (one kp)); [exact RR|exact Logic.I|rewrite E1; reflexivity]. }
  destruct (post_setters Rtrunc dif1 good_ones_R name (vzero 1) 1 1 1 s1 ltac:(lia) ltac:(cbn; lia) M1) as (_ & B & _).
  destruct (proj1 (B (one kd)) eq_refl) as (s2 & E2 & S2).
  assert (M2 : tmade Rtrunc dif1 name (vzero 1) 1 1 1 s2).
  { destruct M1 as (jk & s00 & EE & RR). exists jk, s00. split; [exact EE|]. eapply reach_step with (o := TKd (one kd)); [exact RR|exact Logic.I|rewrite E2; reflexivity]. }
  destruct (post_setters Rtrunc dif1 good_ones_R name (vzero 1) 1 1 1 s2 ltac:(lia) ltac:(cbn; lia) M2) as (_ & _ & C).
  destruct (proj1 (C (one 0) (one 0) (one 0)) ltac:(auto)) as (s3 & E3 & S3).
  assert (M3 : tmade Rtrunc dif1 name (vzero 1) 1 1 1 s3).
  { destruct M2 as (jk & s00 & EE & RR). exists jk, s00. split; [exact EE|]. eapply reach_step with (o := TRef (one 0) (one 0) (one 0)); [exact RR|exact Logic.I|rewrite E3; reflexivity]. }
  exists s3. split; [exact M3|]. destruct S1 as (P1 & Q1 & _ & _ & _ & U1 & _), S2 as (P2 & Q2 & _ & _ & _ & U2 & _), S3 as (P3 & Q3 & V3 & D3 & W3 & U3 & _).
  rewrite P3, P2, P1, Q3, Q2, V3, D3, W3, U3, U2, U1, MK. unfold active, one. cbn [vget]. change (@n1 Rnum) with 1%R. repeat split; lra.
Qed.
Lemma orbit_sampled intg dt kp kd (e d : nat -> R) :
  (forall n, e (S n) = intg dt (e n) (d n) (- kp * e n - kd * d n)%R /\ d (S n) = (d n + dt * (- kp * e n - kd * d n))%R) -> sampled intg dt kp kd e d.
Proof.
  intros H. destruct (one_joint "posture" kp kd) as (s & M & A & KP & KD & RV & RD & RS).
  assert (RUN : forall n, exists s', post_step Rtrunc dif1 s (TCompute (one (e n)) (one (d n))) = Ret s' tt).
  { intros n. destruct (post_defined Rtrunc dif1 good_ones_R "posture" (vzero 1) 1 1 1 s (one (e n)) (one (d n))) as (s' & E & _); try (cbn; lia); [exact M|]. eauto. }
  exists dif1, "posture"%string, (vzero 1), 1, 1, 0, (fun _ => s),
    (fun n => match post_step Rtrunc dif1 s (TCompute (one (e n)) (one (d n))) with Ret s' _ => s' | _ => s end),
    (fun n => one (e n)), (fun n => one (d n)), (fun n _ => (- kp * e n - kd * d n)%R), 0%R.
  split; [apply respects_dif1|]. split; [lia|]. split; [cbn; lia|]. split; [lia|]. split; [apply plain_dif1|].
  intros n. destruct (RUN n) as (s' & E). rewrite E. destruct (H n) as [H1 H2].
  split; [exact M|]. split; [exact A|]. split; [exact KP|]. split; [exact KD|]. split; [exact RV|]. split; [exact RD|]. split; [exact RS|].
  split; [reflexivity|]. split; [|split; [exact H1|split; [exact H2|split; [|reflexivity]]]].
  - apply (post_meaning dif1 "posture" (vzero 1) 1 1 1 s (one (e n)) (one (d n)) s'); [apply respects_dif1|lia|cbn; lia|exact M|exact E|].
    intros i Hi _. assert (i = 0) by lia. subst i. rewrite KP, KD, RD, RS.
    assert (HP := plain_dif1 (ref_config (vzero 1) (t_val s)) (one (e n)) eq_refl eq_refl). rewrite HP.
    destruct (post_sizes dif1 "posture" (vzero 1) 1 1 s (one (e n)) (one (d n)) s') as [_ LV]; [lia|cbn; lia|exact M|exact E|].
    assert (RE := ref_entry (vzero 1) (t_val s) 0). rewrite LV in RE. cbn [vlen vzero Nat.sub Nat.add] in RE |- *. rewrite RE by lia. rewrite RV. cbn. ring.
  - cbn. lra.
Qed.

(** * Exact stability conditions *)
Definition settles (intg : R -> R -> R -> R -> R) (dt kp kd : R) : Prop := forall e d, sampled intg dt kp kd e d -> vanishes e /\ vanishes d.
Lemma still a b c d : (a = 1 -> c = 0 -> ~ stable a b c d)%R.
Proof.
  intros -> -> H. destruct (H (fun _ => 1%R) (fun _ => 0%R)) as [V _]; [intros n; split; ring|].
  apply (not_vanishing (fun _ => 1%R)); [intros _; rewrite Rabs_R1; lra|exact V].
Qed.
Theorem mean_settles dt kp kd : (0 < dt -> settles mean_step dt kp kd <-> 0 < kp /\ kp * dt < 2 * kd /\ kd * dt < 2)%R.
Proof.
  intros Hdt. assert (EQ : settles mean_step dt kp kd <-> stable (1 - kp * dt * dt / 2) (dt - kd * dt * dt / 2) (- kp * dt) (1 - kd * dt)).
  { split; intros H e d S; apply H; [|apply sampled_mean; exact S]. apply orbit_sampled. intros n. destruct (S n) as [-> ->]. unfold mean_step. split; field. }
  rewrite EQ. destruct (Req_dec kp 0) as [->|K].
  - split; [|lra]. intros H. exfalso. revert H. apply still; lra.
  - rewrite stable_iff by nra.
    replace ((1 - kp * dt * dt / 2) * (1 - kd * dt) - (dt - kd * dt * dt / 2) * (- kp * dt))%R with (1 - kd * dt + kp * dt * dt / 2)%R by field.
    replace (1 - kp * dt * dt / 2 + (1 - kd * dt))%R with (2 - kd * dt - kp * dt * dt / 2)%R by field. split.
    + intros [A B]. apply Rabs_def2 in B. repeat split; nra.
    + intros (P & A & B). assert (0 < kp * dt * dt)%R by (apply Rmult_lt_0_compat; [apply Rmult_lt_0_compat|]; assumption).
      assert (kp * dt * dt < 2 * kd * dt)%R by (apply Rmult_lt_compat_r; assumption). split; [lra|]. apply Rabs_def1; lra.
Qed.
Theorem last_settles dt kp kd : (0 < dt -> settles last_step dt kp kd <-> 0 < kp /\ 0 < kd /\ 2 * (kd * dt) + kp * dt * dt < 4)%R.
Proof.
  intros Hdt. assert (EQ : settles last_step dt kp kd <-> stable (1 - kp * dt * dt) (dt - kd * dt * dt) (- kp * dt) (1 - kd * dt)).
  { split; intros H e d S; apply H; [|apply sampled_last; exact S]. apply orbit_sampled. intros n. destruct (S n) as [-> ->]. unfold last_step. split; ring. }
  rewrite EQ. destruct (Req_dec kp 0) as [->|K].
  - split; [|lra]. intros H. exfalso. revert H. apply still; lra.
  - rewrite stable_iff by nra.
    replace ((1 - kp * dt * dt) * (1 - kd * dt) - (dt - kd * dt * dt) * (- kp * dt))%R with (1 - kd * dt)%R by ring.
    replace (1 - kp * dt * dt + (1 - kd * dt))%R with (2 - kd * dt - kp * dt * dt)%R by ring. split.
    + intros [A B]. apply Rabs_def2 in B. repeat split; nra.
    + intros (P & A & B). assert (0 < kp * dt * dt)%R by (apply Rmult_lt_0_compat; [apply Rmult_lt_0_compat|]; assumption).
      assert (0 < kd * dt)%R by (apply Rmult_lt_0_compat; assumption). split; [lra|]. apply Rabs_def1; lra.
Qed.
(** The damping of the exercises, kd = 2 sqrt kp (exercizes/tsid_manipulator.py:42,
    tsid_biped.py:88,103). *)
Theorem critical_settles dt kp : (0 < dt -> 0 < kp ->
  (settles mean_step dt kp (2 * sqrt kp) <-> sqrt kp * dt < 1) /\ (settles last_step dt kp (2 * sqrt kp) <-> sqrt kp * dt < 2 * sqrt 2 - 2))%R.
Proof.
  intros Hdt P. rewrite mean_settles, last_settles by exact Hdt. assert (W : (sqrt kp * sqrt kp = kp)%R) by (apply sqrt_sqrt; lra).
  assert (W0 : (0 < sqrt kp)%R) by (apply sqrt_lt_R0; exact P). set (w := sqrt kp) in *. rewrite <- W.
  assert (T : (sqrt 2 * sqrt 2 = 2)%R) by (apply sqrt_sqrt; lra). assert (T0 : (0 < sqrt 2)%R) by (apply sqrt_lt_R0; lra). set (h := sqrt 2) in *.
  assert (X : (0 < w * dt)%R) by (apply Rmult_lt_0_compat; assumption). split; split.
  - lra.
  - intros H. split; [nra|]. split; nra.
  - intros (_ & _ & H). set (x := (w * dt)%R) in *. assert (H' : (4 * x + x * x < 4)%R) by (unfold x; nra). nra.
  - intros H. split; [nra|]. split; [lra|]. set (x := (w * dt)%R) in *. assert (4 * x + x * x < 4)%R by nra. replace (w * w * dt * dt)%R with (x * x)%R by (unfold x; ring). unfold x in *. nra.
Qed.
