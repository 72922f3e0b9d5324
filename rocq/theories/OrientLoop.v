(** Orientation of the frames controlled by the SE3-equality and two-frames-equality tasks when the
    commanded acceleration is applied to the robot. *)
From Coq Require Import String List Arith Bool ZArith Reals Lia Lra.
From Verif Require Import Scalar Outcome Linalg Constraint FormPhysSpec RSum Masks MaskReal JointTask FrameTasks FrameTasksP FrameTasksR FrameSetters FrameRefute
  LinearLoop ClosedLoop ClosedLoopR RotLoop RotLoop2.
Import ListNotations.
Open Scope nat_scope.

(** * Specification *)
Definition proper (Q : rmat) : Prop := orthogonal Q /\ det3 Q = 1%R.
(** Angle of a rotation, in [0, pi]. *)
Definition turn_of (E : rmat) : R := acos ((trace3 E - 1) / 2).
(** log3 is the principal logarithm: the axis times the angle, below a half turn. The function is
    pinocchio's and is not modelled; for the half turn itself nothing is assumed. *)
Definition principal (log3 : rmat -> rvec) : Prop := forall E, proper E -> (turn_of E < PI)%R -> forall i, i < 3 ->
  (turn_of E = 0 -> log3 E i = 0)%R /\ (sin (turn_of E) * log3 E i = turn_of E * vee3 E i)%R.
(** Angle between two frames, and difference of their angular velocities, squared. *)
Definition apart (A B : R -> rmat) (t : R) : R := turn_of (fun a b => rot (tr (A t)) (fun k => B t k b) a).
Definition speed2 (w wd : R -> rvec) (t : R) : R := dot3 (fun i => wd t i - w t i)%R (fun i => wd t i - w t i)%R.
(** Angle and velocity difference shrink exponentially, and the angle never exceeds [m]. *)
Definition aligns (c r m : R) (A B : R -> rmat) (w wd : R -> rvec) : Prop := forall t, (0 <= t)%R ->
  (apart A B t <= m)%R /\ (apart A B t * apart A B t <= c * (apart A B 0 * apart A B 0 + speed2 w wd 0) * exp (- r * t))%R /\
  (speed2 w wd t <= c * (apart A B 0 * apart A B 0 + speed2 w wd 0) * exp (- r * t))%R.
(** w1 is the derivative of the angular velocity w, and w the angular velocity of the frame A. *)
Definition spins (A : R -> rmat) (w w1 : R -> rvec) : Prop := turning A w /\
  forall t, (0 <= t)%R -> forall i, i < 3 -> derivable_pt_lim (fun u => w u i) t (w1 t i).

Lemma orthogonal_orth (Q : rmat) : orthogonal Q -> rows3 Q /\ rows3 (fun i j => Q j i).
Proof.
  intros O.
  assert (H : forall i j, i < 3 -> j < 3 -> (dot3 (Q i) (Q j) = if i =? j then 1 else 0)%R /\ (dot3 (fun k => Q k i) (fun k => Q k j) = if i =? j then 1 else 0)%R).
  { intros i j Hi Hj. destruct (O (fun k => if k =? j then 1%R else 0%R) i Hi) as [X Y]. unfold rot, tr in X, Y. unfold dot3.
    destruct j as [|[|[|j]]]; [| | |lia]; cbn [Nat.eqb] in X, Y; (split; [etransitivity; [|exact X]|etransitivity; [|exact Y]]); ring. }
  unfold rows3. repeat split; try (apply (H 0 0); lia); try (apply (H 1 1); lia); try (apply (H 2 2); lia); try (apply (H 0 1); lia); try (apply (H 0 2); lia); apply (H 1 2); lia.
Qed.
Lemma proper_rotation Q : proper Q -> rotation3 Q.
Proof. intros [O D]. destruct (orthogonal_orth Q O) as [A B]. split; [exact A|]. split; [exact B|exact D]. Qed.
Lemma rotation_proper Q : rotation3 Q -> proper Q.
Proof.
  intros ((A0 & A1 & A2 & A01 & A02 & A12) & (B0 & B1 & B2 & B01 & B02 & B12) & D). split; [|exact D]. unfold dot3 in *.
  intros x i Hi. unfold rot, tr. names Q. set (x 0%nat) in *. set (x 1%nat) in *. set (x 2%nat) in *.
  destruct i as [|[|[|i]]]; [| | |lia]; split.
  - transitivity ((r * r + r0 * r0 + r1 * r1) * r8 + (r * r2 + r0 * r3 + r1 * r4) * r9 + (r * r5 + r0 * r6 + r1 * r7) * r10)%R; [fold r r0 r1 r2 r3 r4 r5 r6 r7 r8 r9 r10; ring|rewrite A0, A01, A02; fold r8; ring].
  - transitivity ((r * r + r2 * r2 + r5 * r5) * r8 + (r * r0 + r2 * r3 + r5 * r6) * r9 + (r * r1 + r2 * r4 + r5 * r7) * r10)%R; [fold r r0 r1 r2 r3 r4 r5 r6 r7 r8 r9 r10; ring|rewrite B0, B01, B02; fold r8; ring].
  - transitivity ((r * r2 + r0 * r3 + r1 * r4) * r8 + (r2 * r2 + r3 * r3 + r4 * r4) * r9 + (r2 * r5 + r3 * r6 + r4 * r7) * r10)%R; [fold r r0 r1 r2 r3 r4 r5 r6 r7 r8 r9 r10; ring|rewrite A1, A01, A12; fold r9; ring].
  - transitivity ((r * r0 + r2 * r3 + r5 * r6) * r8 + (r0 * r0 + r3 * r3 + r6 * r6) * r9 + (r0 * r1 + r3 * r4 + r6 * r7) * r10)%R; [fold r r0 r1 r2 r3 r4 r5 r6 r7 r8 r9 r10; ring|rewrite B1, B01, B12; fold r9; ring].
  - transitivity ((r * r5 + r0 * r6 + r1 * r7) * r8 + (r2 * r5 + r3 * r6 + r4 * r7) * r9 + (r5 * r5 + r6 * r6 + r7 * r7) * r10)%R; [fold r r0 r1 r2 r3 r4 r5 r6 r7 r8 r9 r10; ring|rewrite A2, A02, A12; fold r10; ring].
  - transitivity ((r * r1 + r2 * r4 + r5 * r7) * r8 + (r0 * r1 + r3 * r4 + r6 * r7) * r9 + (r1 * r1 + r4 * r4 + r7 * r7) * r10)%R; [fold r r0 r1 r2 r3 r4 r5 r6 r7 r8 r9 r10; ring|rewrite B2, B02, B12; fold r10; ring].
Qed.
Lemma rotation_tr Q : rotation3 Q -> rotation3 (fun i j => Q j i).
Proof. intros (A & B & D). split; [exact B|]. split; [exact A|]. rewrite <- D. unfold det3, dot3, cross3. ring. Qed.
Lemma error_proper Q Qd : proper Q -> proper Qd -> proper (tr_mul Q Qd).
Proof.
  intros A B. apply rotation_proper. apply proper_rotation in A, B.
  exact (rotation_mul (fun i j => Q j i) (fun i j => Qd j i) (rotation_tr _ A) (rotation_tr _ B)).
Qed.

(** * Any law of this form *)
Section Law.
Variables (log3 : rmat -> rvec) (A B : R -> rmat) (w w1 wd wd1 : R -> rvec) (kp kd : R).
Hypothesis HP : principal log3.
Hypothesis HA : forall t, (0 <= t)%R -> proper (A t).
Hypothesis HB : forall t, (0 <= t)%R -> proper (B t).
Hypothesis SA : spins A w w1.
Hypothesis SB : spins B wd wd1.
Hypothesis LAW : forall t, (0 <= t)%R -> forall i, i < 3 -> (wd1 t i - w1 t i = - kp * rot (A t) (rot_error log3 (A t) (B t)) i - kd * (wd t i - w t i))%R.
Let r (t : R) := rot (A t) (rot_error log3 (A t) (B t)).
Lemma apart_angle t : apart A B t = theta A B t.
Proof. reflexivity. Qed.
Lemma law_eta t : (0 <= t)%R -> forall i, i < 3 -> derivable_pt_lim (fun u => eta w wd u i) t (- kp * r t i - kd * eta w wd t i)%R.
Proof.
  intros Ht i Hi. eapply deriv_val; [apply deriv_minus; [apply (proj2 SB)|apply (proj2 SA)]; assumption|]. apply LAW; assumption.
Qed.
Lemma law_principal t : (0 <= t)%R -> (theta A B t < PI)%R -> forall i, i < 3 ->
  (theta A B t = 0 -> r t i = 0)%R /\ (sin (theta A B t) * r t i = theta A B t * vee3 (mul_tr (B t) (A t)) i)%R.
Proof.
  intros Ht Hlt i Hi. assert (P := HP (tr_mul (A t) (B t)) (error_proper _ _ (HA t Ht) (HB t Ht)) Hlt).
  change (turn_of (tr_mul (A t) (B t))) with (theta A B t) in P. unfold r, rot_error. change (fun a b => rot (tr (A t)) (fun k => B t k b) a) with (tr_mul (A t) (B t)).
  assert (RA := proper_rotation _ (HA t Ht)). split.
  - intros Z. unfold rot. rewrite (proj1 (P 0 ltac:(lia)) Z), (proj1 (P 1 ltac:(lia)) Z), (proj1 (P 2 ltac:(lia)) Z). ring.
  - rewrite <- (vee_turn (A t) (B t) (proj1 RA) (proj1 (proj2 RA)) (proj2 (proj2 RA)) i Hi). unfold rot, app3, dot3.
    transitivity (A t i 0%nat * (sin (theta A B t) * log3 (tr_mul (A t) (B t)) 0%nat) + A t i 1%nat * (sin (theta A B t) * log3 (tr_mul (A t) (B t)) 1%nat) + A t i 2%nat * (sin (theta A B t) * log3 (tr_mul (A t) (B t)) 2%nat))%R; [ring|].
    rewrite (proj2 (P 0 ltac:(lia))), (proj2 (P 1 ltac:(lia))), (proj2 (P 2 ltac:(lia))). ring.
Qed.
Lemma law_stays m : (0 < kp -> 0 < kd -> 0 <= m < PI -> kp * (apart A B 0 * apart A B 0) + speed2 w wd 0 <= kp * (m * m) -> forall t, 0 <= t ->
  apart A B t <= m /\ kp * (apart A B t * apart A B t) + speed2 w wd t <= kp * (apart A B 0 * apart A B 0) + speed2 w wd 0)%R.
Proof.
  intros P D M V t Ht.
  exact (stays kp kd A B w wd r P D (fun t Ht => proper_rotation _ (HA t Ht)) (fun t Ht => proper_rotation _ (HB t Ht)) (proj1 SA) (proj1 SB) law_eta law_principal m M V t Ht).
Qed.
Lemma law_decay m O2 e q : (0 < kp -> 0 < kd -> 0 <= m < PI -> kp * (apart A B 0 * apart A B 0) + speed2 w wd 0 <= kp * (m * m) ->
  0 <= O2 -> (forall t, 0 <= t -> dot3 (wd t) (wd t) <= O2) -> 0 < e -> 2 * e <= 1 -> 2 * e <= kp -> 2 * e * (2 * kp + (O2 + 1) + kd * kd) <= kd * kp ->
  0 < q -> 3 / 2 * q <= kd -> 3 / 2 * q <= e * (cos (m / 2) / 2) -> forall t, 0 <= t ->
  kp * (apart A B t * apart A B t) + speed2 w wd t <= 3 * (kp * (apart A B 0 * apart A B 0) + speed2 w wd 0) * exp (- q * t))%R.
Proof.
  intros P D M V O1 O2' E0 E1 E2 E3 Q0 Q1 Q2 t Ht.
  exact (loop_decay kp kd A B w wd r P D (fun t Ht => proper_rotation _ (HA t Ht)) (fun t Ht => proper_rotation _ (HB t Ht)) (proj1 SA) (proj1 SB) law_eta law_principal m M V O2 O1 O2' e E0 E1 E2 E3 q Q0 Q1 Q2 t Ht).
Qed.
End Law.
(** Constants that depend on the gains, the bound on the angle and the bound on the rate of the
    reference only. *)
Lemma law_constants kp kd m O2 : (0 < kp -> 0 < kd -> 0 <= m < PI -> 0 <= O2 -> exists c r, 0 < r /\ 0 < c /\
  forall log3 A B w w1 wd wd1, principal log3 -> (forall t, 0 <= t -> proper (A t)) -> (forall t, 0 <= t -> proper (B t)) -> spins A w w1 -> spins B wd wd1 ->
    (forall t, 0 <= t -> forall i, (i < 3)%nat -> wd1 t i - w1 t i = - kp * rot (A t) (rot_error log3 (A t) (B t)) i - kd * (wd t i - w t i)) ->
    (forall t, 0 <= t -> dot3 (wd t) (wd t) <= O2) ->
    kp * (apart A B 0 * apart A B 0) + speed2 w wd 0 <= kp * (m * m) -> aligns c r m A B w wd)%R.
Proof.
  intros P D M HO.
  pose (S := (2 * kp + (O2 + 1) + kd * kd)%R). assert (S0 : (0 < S)%R) by (unfold S; nra).
  pose (e := (Rmin (1 / 2) (Rmin (kp / 2) (kd * kp / (2 * S))))%R).
  assert (EP : (0 < e)%R) by (unfold e; repeat apply Rmin_glb_lt; try lra; apply Rdiv_lt_0_compat; nra).
  assert (E1 : (e <= 1 / 2)%R) by apply Rmin_l.
  assert (E23 : (e <= Rmin (kp / 2) (kd * kp / (2 * S)))%R) by apply Rmin_r.
  assert (E2 : (e <= kp / 2)%R) by (apply Rle_trans with (1 := E23), Rmin_l).
  assert (E3 : (e <= kd * kp / (2 * S))%R) by (apply Rle_trans with (1 := E23), Rmin_r).
  assert (E3' : (2 * e * S <= kd * kp)%R).
  { apply Rmult_le_compat_r with (r := (2 * S)%R) in E3; [|lra]. replace (kd * kp / (2 * S) * (2 * S))%R with (kd * kp)%R in E3 by (field; lra). lra. }
  assert (CP : (0 < cos (m / 2))%R) by (apply cos_gt_0; lra).
  pose (q := (Rmin (2 / 3 * kd) (2 / 3 * (e * (cos (m / 2) / 2))))%R).
  assert (QP : (0 < q)%R) by (unfold q; apply Rmin_glb_lt; nra).
  assert (Q1 : (q <= 2 / 3 * kd)%R) by apply Rmin_l. assert (Q2 : (q <= 2 / 3 * (e * (cos (m / 2) / 2)))%R) by apply Rmin_r.
  assert (IP : (0 < / kp)%R) by (apply Rinv_0_lt_compat, P).
  exists (3 * (1 + kp) * (1 + / kp))%R, q. split; [exact QP|]. split; [nra|].
  intros log3 A B w w1 wd wd1 HP HA HB SA SB LAW HW V t Ht.
  destruct (law_stays log3 A B w w1 wd wd1 kp kd HP HA HB SA SB LAW m P D M V t Ht) as [TM _].
  assert (X := law_decay log3 A B w w1 wd wd1 kp kd HP HA HB SA SB LAW m O2 e q P D M V HO HW EP ltac:(lra) ltac:(lra) E3' QP ltac:(lra) ltac:(lra) t Ht).
  split; [exact TM|].
  set (T := (apart A B t * apart A B t)%R) in *. set (T0 := (apart A B 0 * apart A B 0)%R) in *. set (N := speed2 w wd t) in *. set (N0 := speed2 w wd 0) in *. set (g := exp (- q * t)) in *.
  assert (G : (0 < g)%R) by apply exp_pos. assert (TP : (0 <= T)%R) by apply sq_pos. assert (T0P : (0 <= T0)%R) by apply sq_pos.
  assert (NP : (0 <= N)%R) by apply dot_pos. assert (N0P : (0 <= N0)%R) by apply dot_pos.
  assert (Y : (kp * T0 + N0 <= (1 + kp) * (T0 + N0))%R) by nra.
  assert (Y' : (3 * (kp * T0 + N0) * g <= 3 * (1 + kp) * (T0 + N0) * g)%R) by (apply Rmult_le_compat_r; lra).
  set (Z := (3 * (1 + kp) * (T0 + N0) * g)%R) in *. assert (Z0 : (0 <= Z)%R) by (unfold Z; apply Rmult_le_pos; nra).
  replace (3 * (1 + kp) * (1 + / kp) * (T0 + N0) * g)%R with (Z + Z * / kp)%R by (unfold Z; ring).
  assert (ZK : (0 <= Z * / kp)%R) by (apply Rmult_le_pos; lra). split; [|nra].
  assert (K1 : (kp * T <= Z)%R) by lra. apply Rmult_le_compat_r with (r := (/ kp)%R) in K1; [|lra]. replace (kp * T * / kp)%R with T in K1 by (field; lra). lra.
Qed.

(** * The SE3 task *)
(** Both modes of the task, equal angular gains, no angular component masked. *)
Definition frame_runs (log3 : rmat -> rvec) (kp kd : R) (name : string) (nv : nat) (s s' : R -> se3t Rnum) (d : R -> fdata Rnum) (y : R -> nat -> R) : Prop :=
  forall t, (0 <= t)%R -> @se3_made Rnum Rtrunc log3 name nv (s t) /\ proper (d_R (d t)) /\ proper (x_Rd (s t)) /\
    (forall i, i < 3 -> on (x_mask (s t)) (3 + i) /\ vget (x_kp (s t)) (3 + i) = kp /\ vget (x_kd (s t)) (3 + i) = kd) /\
    @se3_step Rnum Rtrunc log3 (s t) (XCompute (d t)) = Ret (s' t) tt /\ sat (h_c (x_h (s' t))) (y t).
(** The robot moves as its data and the commanded accelerations say; world axes. *)
Definition frame_spins (nv : nat) (d : R -> fdata Rnum) (y : R -> nat -> R) : Prop :=
  spins (fun t => d_R (d t)) (fun t => rot (d_R (d t)) (ang (d_v (d t)))) (fun t => rot (d_R (d t)) (ang (accel nv (d_J (d t)) (d_a (d t)) (y t)))).
(** Velocity and acceleration of the reference belong to its orientation. *)
Definition reference_spins (s : R -> se3t Rnum) : Prop := spins (fun t => x_Rd (s t)) (fun t => ang (x_vd (s t))) (fun t => ang (x_ad (s t))).

Lemma frame_law log3 kp kd name nv s s' d y : reads9 log3 -> frame_runs log3 kp kd name nv s s' d y -> forall t, (0 <= t)%R -> forall i, i < 3 ->
  (ang (x_ad (s t)) i - rot (d_R (d t)) (ang (accel nv (d_J (d t)) (d_a (d t)) (y t))) i =
   - kp * rot (d_R (d t)) (rot_error log3 (d_R (d t)) (x_Rd (s t))) i - kd * (ang (x_vd (s t)) i - rot (d_R (d t)) (ang (d_v (d t))) i))%R.
Proof.
  intros HL L t Ht i Hi. destruct (L t Ht) as (M & [O _] & _ & G & E & HS). destruct (x_local (s t)) eqn:XL.
  - destruct (proj1 (se3_meaning_local log3 HL _ _ _ _ _ M XL E (y t)) HS) as [_ AN]. unfold local_ang in AN.
    set (a := ang (accel nv (d_J (d t)) (d_a (d t)) (y t))) in *.
    assert (LA : forall k, k < 3 -> a k = (kp * rot_error log3 (d_R (d t)) (x_Rd (s t)) k + kd * (rot (tr (d_R (d t))) (ang (x_vd (s t))) k - ang (d_v (d t)) k) + rot (tr (d_R (d t))) (ang (x_ad (s t))) k)%R).
    { intros k Hk. destruct (G k Hk) as (A & KP & KD). rewrite (AN k Hk A), KP, KD. reflexivity. }
    assert (RL : forall x, rot (d_R (d t)) (rot (tr (d_R (d t))) x) i = x i) by (intros x; apply (O x i Hi)).
    assert (W : rot (d_R (d t)) a i = (kp * rot (d_R (d t)) (rot_error log3 (d_R (d t)) (x_Rd (s t))) i
       + kd * (rot (d_R (d t)) (rot (tr (d_R (d t))) (ang (x_vd (s t)))) i - rot (d_R (d t)) (ang (d_v (d t))) i) + rot (d_R (d t)) (rot (tr (d_R (d t))) (ang (x_ad (s t)))) i)%R).
    { generalize (rot_error log3 (d_R (d t)) (x_Rd (s t))) (rot (tr (d_R (d t))) (ang (x_vd (s t)))) (rot (tr (d_R (d t))) (ang (x_ad (s t)))) LA.
      intros u1 u2 u3 LL. unfold rot. rewrite (LL 0), (LL 1), (LL 2) by lia. ring. }
    rewrite W, !RL. ring.
  - destruct (G i Hi) as (A & KP & KD). assert (W := proj2 (proj1 (se3_meaning_world log3 HL _ _ _ _ _ M XL O E (y t)) HS) i Hi A). unfold world_ang in W. rewrite KP, KD in W. rewrite W. unfold ang. ring.
Qed.
Theorem frame_stays_near kp kd m : (0 < kp -> 0 < kd -> 0 <= m < PI ->
  forall log3, reads9 log3 -> principal log3 -> forall name nv s s' d y, frame_runs log3 kp kd name nv s s' d y -> frame_spins nv d y -> reference_spins s ->
    let A := fun t => d_R (d t) in let B := fun t => x_Rd (s t) in let w := fun t => rot (d_R (d t)) (ang (d_v (d t))) in let wd := fun t => ang (x_vd (s t)) in
    kp * (apart A B 0 * apart A B 0) + speed2 w wd 0 <= kp * (m * m) -> forall t, 0 <= t ->
    apart A B t <= m /\ kp * (apart A B t * apart A B t) + speed2 w wd t <= kp * (apart A B 0 * apart A B 0) + speed2 w wd 0)%R.
Proof.
  intros P D M log3 HL HP name nv s s' d y L SA SB A B w wd V t Ht.
  apply (law_stays log3 A B w (fun t => rot (d_R (d t)) (ang (accel nv (d_J (d t)) (d_a (d t)) (y t)))) wd (fun t => ang (x_ad (s t))) kp kd HP); try assumption.
  - intros u Hu. apply (L u Hu).
  - intros u Hu. apply (L u Hu).
  - exact (frame_law log3 kp kd name nv s s' d y HL L).
Qed.
Theorem frame_aligns kp kd m O2 : (0 < kp -> 0 < kd -> 0 <= m < PI -> 0 <= O2 -> exists c r, 0 < r /\
  forall log3, reads9 log3 -> principal log3 -> forall name nv s s' d y, frame_runs log3 kp kd name nv s s' d y -> frame_spins nv d y -> reference_spins s ->
    let A := fun t => d_R (d t) in let B := fun t => x_Rd (s t) in let w := fun t => rot (d_R (d t)) (ang (d_v (d t))) in let wd := fun t => ang (x_vd (s t)) in
    (forall t, 0 <= t -> dot3 (wd t) (wd t) <= O2) ->
    kp * (apart A B 0 * apart A B 0) + speed2 w wd 0 <= kp * (m * m) -> aligns c r m A B w wd)%R.
Proof.
  intros P D M HO. destruct (law_constants kp kd m O2 P D M HO) as (c & r & R0 & _ & H). exists c, r. split; [exact R0|].
  intros log3 HL HP name nv s s' d y L SA SB A B w wd HW V.
  apply (H log3 A B w (fun t => rot (d_R (d t)) (ang (accel nv (d_J (d t)) (d_a (d t)) (y t)))) wd (fun t => ang (x_ad (s t)))); try assumption.
  - intros u Hu. apply (L u Hu).
  - intros u Hu. apply (L u Hu).
  - exact (frame_law log3 kp kd name nv s s' d y HL L).
Qed.

(** * The two-frames task *)
Definition pair_runs (log3 : rmat -> rvec) (kp kd : R) (name : string) (nv : nat) (s s' : R -> tft Rnum) (d1 d2 : R -> fdata Rnum) (y : R -> nat -> R) : Prop :=
  forall t, (0 <= t)%R -> @tf_made Rnum Rtrunc log3 name nv (s t) /\ proper (d_R (d1 t)) /\ proper (d_R (d2 t)) /\
    (forall i, i < 3 -> on (y_mask (s t)) (3 + i) /\ vget (y_kp (s t)) (3 + i) = kp /\ vget (y_kd (s t)) (3 + i) = kd) /\
    @tf_step Rnum Rtrunc log3 (s t) (YCompute (d1 t) (d2 t)) = Ret (s' t) tt /\ sat (h_c (y_h (s' t))) (y t).
Lemma pair_law log3 kp kd name nv s s' d1 d2 y : reads9 log3 -> pair_runs log3 kp kd name nv s s' d1 d2 y -> forall t, (0 <= t)%R -> forall i, i < 3 ->
  (rot (d_R (d2 t)) (ang (accel nv (d_J (d2 t)) (d_a (d2 t)) (y t))) i - rot (d_R (d1 t)) (ang (accel nv (d_J (d1 t)) (d_a (d1 t)) (y t))) i =
   - kp * rot (d_R (d1 t)) (rot_error log3 (d_R (d1 t)) (d_R (d2 t))) i - kd * (rot (d_R (d2 t)) (ang (d_v (d2 t))) i - rot (d_R (d1 t)) (ang (d_v (d1 t))) i))%R.
Proof.
  intros HL L t Ht i Hi. destruct (L t Ht) as (M & [O _] & _ & G & E & HS). destruct (G i Hi) as (A & KP & KD).
  assert (W := proj2 (proj1 (tf_meaning log3 HL _ _ _ _ _ _ M O E (y t)) HS) i Hi A). rewrite KP, KD in W. lra.
Qed.
Theorem pair_aligns kp kd m O2 : (0 < kp -> 0 < kd -> 0 <= m < PI -> 0 <= O2 -> exists c r, 0 < r /\
  forall log3, reads9 log3 -> principal log3 -> forall name nv s s' d1 d2 y, pair_runs log3 kp kd name nv s s' d1 d2 y -> frame_spins nv d1 y -> frame_spins nv d2 y ->
    let A := fun t => d_R (d1 t) in let B := fun t => d_R (d2 t) in let w := fun t => rot (d_R (d1 t)) (ang (d_v (d1 t))) in let wd := fun t => rot (d_R (d2 t)) (ang (d_v (d2 t))) in
    (forall t, 0 <= t -> dot3 (wd t) (wd t) <= O2) ->
    kp * (apart A B 0 * apart A B 0) + speed2 w wd 0 <= kp * (m * m) -> aligns c r m A B w wd)%R.
Proof.
  intros P D M HO. destruct (law_constants kp kd m O2 P D M HO) as (c & r & R0 & _ & H). exists c, r. split; [exact R0|].
  intros log3 HL HP name nv s s' d1 d2 y L SA SB A B w wd HW V.
  apply (H log3 A B w (fun t => rot (d_R (d1 t)) (ang (accel nv (d_J (d1 t)) (d_a (d1 t)) (y t)))) wd (fun t => rot (d_R (d2 t)) (ang (accel nv (d_J (d2 t)) (d_a (d2 t)) (y t))))); try assumption.
  - intros u Hu. apply (L u Hu).
  - intros u Hu. apply (L u Hu).
  - exact (pair_law log3 kp kd name nv s s' d1 d2 y HL L).
Qed.
