(** What the frame, centre-of-mass and angular-momentum tasks mean, over the reals. *)
From Coq Require Import String List Arith Bool ZArith QArith Reals Lia Lra.
From Verif Require Import Scalar Outcome Linalg Constraint FormPhysSpec RSum Masks MaskReal JointTask FrameTasks FrameTasksP.
Import ListNotations.
Open Scope list_scope.
Open Scope nat_scope.

(** * Specification *)
Notation rvec := (nat -> R).
Notation rmat := (nat -> nat -> R).
(** Rotation of a 3-vector, the transposed matrix, linear and angular part. *)
Definition rot (Q : rmat) (x : rvec) : rvec := fun i => (Q i 0%nat * x 0%nat + Q i 1%nat * x 1%nat + Q i 2%nat * x 2%nat)%R.
Definition tr (Q : rmat) : rmat := fun i j => Q j i.
Definition ang (x : rvec) : rvec := fun i => x (3 + i).
(** Acceleration of the frame when the joint accelerations are [y]. *)
Definition accel (nv : nat) (J : rmat) (drift y : rvec) : rvec := fun i => (rsum nv (fun c => J i c * y c) + drift i)%R.
Definition orthogonal (Q : rmat) : Prop := forall x i, i < 3 -> rot Q (rot (tr Q) x) i = x i /\ rot (tr Q) (rot Q x) i = x i.
(** log3 reads the nine entries of the rotation. *)
Definition reads9 (log3 : rmat -> rvec) : Prop := forall A B, (forall a b, a < 3 -> b < 3 -> A a b = B a b) -> forall i, i < 3 -> log3 A i = log3 B i.
(** Rotation vector from the frame to its reference, in the frame. *)
Definition rot_error (log3 : rmat -> rvec) (Q Qd : rmat) : rvec := log3 (fun a b => rot (tr Q) (fun k => Qd k b) a).
Definition vminus (x y : rvec) : rvec := fun i => (x i - y i)%R.
(** Mask entry. *)
Definition on (m : vec Rnum) (i : nat) : Prop := vget m i = 1%R.

(** * Masked rows *)
Lemma ons_on n (m : vec Rnum) i : In i (ons n m) <-> i < n /\ on m i.
Proof. rewrite ons_in. unfold on. rewrite Reqb_true. reflexivity. Qed.
Section Done.
Variables (n nv : nat) (m : vec Rnum) (J : nat -> nat -> Rnum) (ad dr pe ve : nat -> Rnum) (h : mtask Rnum).
Hypothesis D : done Rtrunc n nv m J ad dr pe ve h.
Lemma done_sat y : sat (h_c h) y <-> forall i, i < n -> on m i -> accel nv J dr y i = ad i.
Proof.
  destruct D as ([I1 I2 I3 I4 _ _ _ _ I9] & H1 & H2 & H3). unfold sat, lhs. rewrite I1, I3, I4. split.
  - intros H i Hi Ho. destruct (In_nth_error (ons n m) i) as [j Hj]; [apply ons_on; auto|]. destruct (H3 j i Hj) as (A & B & _).
    assert (HJ : j < mdim Rtrunc m) by (assert (j < length (ons n m)) by (apply nth_error_Some; congruence); lia).
    specialize (H j HJ). rewrite B in H. unfold accel. rewrite (rsum_ext nv _ (fun c => J i c * y c)%R) in H by (intros c _; rewrite A; reflexivity).
    cbn [Rnum nsub car] in H. rewrite H. lra.
  - intros H j Hj. destruct (nth_error (ons n m) j) as [i|] eqn:EJ.
    + destruct (H3 j i EJ) as (A & B & _). apply nth_error_In, ons_on in EJ. specialize (H i (proj1 EJ) (proj2 EJ)). unfold accel in H.
      rewrite B. rewrite (rsum_ext nv _ (fun c => J i c * y c)%R) by (intros c _; rewrite A; reflexivity). cbn [Rnum nsub car]. rewrite <- H. lra.
    + apply nth_error_None in EJ. destruct (I9 j EJ) as [A B]. rewrite B. apply rsum_zero. intros c _. rewrite A. change (@n0 Rnum) with 0%R. lra.
Qed.
(** The rows of components switched on are those of the list [ons]; getAcceleration. *)
Lemma done_acc sgn dv : vlen dv = nv -> exists a, mt_acc sgn h dv = Some a /\ vlen a = mdim Rtrunc m /\
  forall j i, nth_error (ons n m) j = Some i ->
    vget a j = (accel nv J (fun _ => 0) (vget dv) i + (if sgn then 1 else -1) * dr i)%R.
Proof.
  intros L. destruct D as ([I1 I2 I3 I4 _ I6 _ _ _] & H1 & H2 & H3). unfold mt_acc, mvec. rewrite I3, L, Nat.eqb_refl. cbn [obind].
  assert (G : forall j i, nth_error (ons n m) j = Some i -> rsum nv (fun k => mget (c_mat (h_c h)) j k * vget dv k)%R = accel nv J (fun _ => 0%R) (vget dv) i).
  { intros j i Hj. destruct (H3 j i Hj) as (A & _). unfold accel. rewrite Rplus_0_r. apply rsum_ext. intros c _. rewrite A. reflexivity. }
  destruct sgn; unfold vadd, vsub; cbn [vlen]; rewrite I2, I6, Nat.eqb_refl; eexists; (split; [reflexivity|]); (split; [reflexivity|]); intros j i Hj;
    cbn [vget Rnum nadd nsub nmul car]; destruct (H3 j i Hj) as (_ & _ & _ & B & _); rewrite B; rewrite <- (G j i Hj); unfold Rnum; cbn; lra.
Qed.
(** The reported acceleration equals the desired one exactly for the solutions. *)
Lemma done_match_plus dv : vlen dv = nv -> exists a, mt_acc true h dv = Some a /\
  (sat (h_c h) (vget dv) <-> forall j, j < length (ons n m) -> vget a j = vget (h_ad h) j).
Proof.
  intros L. destruct (done_acc true dv L) as (a & E & _ & A). exists a. split; [exact E|]. rewrite done_sat. destruct D as (_ & _ & _ & H3). split.
  - intros H j Hj. destruct (nth_error (ons n m) j) as [i|] eqn:EJ; [|apply nth_error_None in EJ; lia].
    rewrite (A j i EJ). destruct (H3 j i EJ) as (_ & _ & X & _). rewrite X. apply nth_error_In, ons_on in EJ. rewrite <- (H i) by apply EJ. unfold accel. lra.
  - intros H i Hi Ho. destruct (In_nth_error (ons n m) i) as [j Hj]; [apply ons_on; auto|].
    assert (HJ : j < length (ons n m)) by (apply nth_error_Some; congruence). specialize (H j HJ). rewrite (A j i Hj) in H.
    destruct (H3 j i Hj) as (_ & _ & X & _). rewrite X in H. rewrite <- H. unfold accel. lra.
Qed.
(** With the sign of the drift reversed it differs by twice the drift. *)
Lemma done_match_minus dv : vlen dv = nv -> exists a, mt_acc false h dv = Some a /\
  (sat (h_c h) (vget dv) <-> forall j i, nth_error (ons n m) j = Some i -> vget a j = (vget (h_ad h) j - 2 * dr i)%R).
Proof.
  intros L. destruct (done_acc false dv L) as (a & E & _ & A). exists a. split; [exact E|]. rewrite done_sat. destruct D as (_ & _ & _ & H3). split.
  - intros H j i Hj. rewrite (A j i Hj). destruct (H3 j i Hj) as (_ & _ & X & _). rewrite X. apply nth_error_In, ons_on in Hj. rewrite <- (H i) by apply Hj. unfold accel. lra.
  - intros H i Hi Ho. destruct (In_nth_error (ons n m) i) as [j Hj]; [apply ons_on; auto|]. specialize (H j i Hj). rewrite (A j i Hj) in H.
    destruct (H3 j i Hj) as (_ & _ & X & _). rewrite X in H. unfold accel in *. lra.
Qed.
End Done.

(** * Algebra of rotations *)
Lemma rsum3 (f : nat -> R) : rsum 3 f = (f 0%nat + f 1%nat + f 2%nat)%R.
Proof. rewrite !rsum_S, rsum_0. lra. Qed.
Lemma act_lin (Q : rmat) (x : rvec) i : i < 3 -> @act Rnum Q x i = rot Q x i.
Proof. intros H. unfold act. apply Nat.ltb_lt in H. rewrite H. cbn [Rnum nmul car]. rewrite rsum3. reflexivity. Qed.
Lemma act_ang (Q : rmat) (x : rvec) i : i < 3 -> @act Rnum Q x (3 + i) = rot Q (ang x) i.
Proof. intros H. unfold act. replace (3 + i <? 3) with false by (symmetry; apply Nat.ltb_ge; lia). replace (3 + i - 3) with i by lia. cbn [Rnum nmul car]. rewrite rsum3. reflexivity. Qed.
Lemma inv_lin (Q : rmat) (x : rvec) i : i < 3 -> @act_inv Rnum Q x i = rot (tr Q) x i.
Proof. intros H. unfold act_inv. apply Nat.ltb_lt in H. rewrite H. cbn [Rnum nmul car]. rewrite rsum3. reflexivity. Qed.
Lemma inv_ang (Q : rmat) (x : rvec) i : i < 3 -> @act_inv Rnum Q x (3 + i) = rot (tr Q) (ang x) i.
Proof. intros H. unfold act_inv. replace (3 + i <? 3) with false by (symmetry; apply Nat.ltb_ge; lia). replace (3 + i - 3) with i by lia. cbn [Rnum nmul car]. rewrite rsum3. reflexivity. Qed.
Lemma err_lin log3 (Q Qd : rmat) (p pd : rvec) i : i < 3 -> @se3_error Rnum log3 Q p Qd pd i = rot (tr Q) (vminus pd p) i.
Proof. intros H. unfold se3_error. apply Nat.ltb_lt in H. rewrite H. cbn [Rnum nadd nopp nmul car]. rewrite !rsum3. unfold rot, tr, vminus. unfold Rnum; cbn. ring. Qed.
Lemma err_ang log3 (Q Qd : rmat) (p pd : rvec) i : reads9 log3 -> i < 3 -> @se3_error Rnum log3 Q p Qd pd (3 + i) = rot_error log3 Q Qd i.
Proof.
  intros HL H. unfold se3_error, rot_error. replace (3 + i <? 3) with false by (symmetry; apply Nat.ltb_ge; lia). replace (3 + i - 3) with i by lia.
  apply HL; [|exact H]. intros a b _ _. cbn [Rnum nmul car]. rewrite rsum3. reflexivity.
Qed.
Lemma rot_ext (Q : rmat) x y i : (forall k, k < 3 -> x k = y k) -> rot Q x i = rot Q y i.
Proof. intros H. unfold rot. rewrite !H by lia. reflexivity. Qed.
Lemma rot_lincomb (Q : rmat) a x b y z i : rot Q (fun k => a * x k + b * y k + z k)%R i = (a * rot Q x i + b * rot Q y i + rot Q z i)%R.
Proof. unfold rot. ring. Qed.
Lemma rot_minus (Q : rmat) x y i : rot Q (vminus x y) i = (rot Q x i - rot Q y i)%R.
Proof. unfold rot, vminus. ring. Qed.
Lemma rot_inj (Q : rmat) x y : orthogonal Q -> (forall i, i < 3 -> rot Q x i = rot Q y i) -> forall i, i < 3 -> x i = y i.
Proof. intros O H i Hi. rewrite <- (proj2 (O x i Hi)), <- (proj2 (O y i Hi)). apply rot_ext. exact H. Qed.
Lemma sum_lin3 (g : rvec) nv (J : rmat) (dr y : rvec) (f : nat -> rvec) :
  (forall c, f c 0%nat = J 0%nat c /\ f c 1%nat = J 1%nat c /\ f c 2%nat = J 2%nat c) ->
  (rsum nv (fun c => (g 0%nat * f c 0%nat + g 1%nat * f c 1%nat + g 2%nat * f c 2%nat) * y c) + (g 0%nat * dr 0%nat + g 1%nat * dr 1%nat + g 2%nat * dr 2%nat)
   = g 0%nat * (rsum nv (fun c => J 0%nat c * y c) + dr 0%nat) + g 1%nat * (rsum nv (fun c => J 1%nat c * y c) + dr 1%nat) + g 2%nat * (rsum nv (fun c => J 2%nat c * y c) + dr 2%nat))%R.
Proof.
  intros H. rewrite (rsum_ext nv _ (fun c => g 0%nat * (J 0%nat c * y c) + (g 1%nat * (J 1%nat c * y c) + g 2%nat * (J 2%nat c * y c)))%R).
  - rewrite !rsum_plus, !rsum_scal. lra.
  - intros c _. destruct (H c) as (-> & -> & ->). ring.
Qed.
(** Rotating Jacobian and drift rotates the acceleration. *)
Lemma accel_lin nv (Q J : rmat) (dr y : rvec) i : i < 3 -> accel nv (@act_mat Rnum Q J) (@act Rnum Q dr) y i = rot Q (accel nv J dr y) i.
Proof.
  intros H. unfold accel at 1. rewrite act_lin by exact H. unfold act_mat. rewrite (rsum_ext nv _ (fun c => rot Q (fun r => J r c) i * y c)%R) by (intros c _; rewrite act_lin by exact H; reflexivity).
  unfold rot at 1 2. apply (sum_lin3 (Q i) nv J dr y (fun c r => J r c)). auto.
Qed.
Lemma accel_ang nv (Q J : rmat) (dr y : rvec) i : i < 3 -> accel nv (@act_mat Rnum Q J) (@act Rnum Q dr) y (3 + i) = rot Q (ang (accel nv J dr y)) i.
Proof.
  intros H. unfold accel at 1. rewrite act_ang by exact H. unfold act_mat. rewrite (rsum_ext nv _ (fun c => rot Q (ang (fun r => J r c)) i * y c)%R) by (intros c _; rewrite act_ang by exact H; reflexivity).
  unfold rot at 1 2. apply (sum_lin3 (Q i) nv (fun k c => J (3 + k)%nat c) (ang dr) y (fun c k => J (3 + k)%nat c)). auto.
Qed.

(** * Meaning of the constraints *)
Section S.
Variable log3 : rmat -> rvec.
Hypothesis HL : reads9 log3.
Local Notation made := (@se3_made Rnum Rtrunc log3).
Local Notation step := (@se3_step Rnum Rtrunc log3).
(** PD laws in the local frame, and in world axes. *)
Definition local_lin (s : se3t Rnum) (d : fdata Rnum) (i : nat) : R :=
  (vget (x_kp s) i * rot (tr (d_R d)) (vminus (x_pd s) (d_p d)) i + vget (x_kd s) i * (rot (tr (d_R d)) (x_vd s) i - d_v d i) + rot (tr (d_R d)) (x_ad s) i)%R.
Definition local_ang (s : se3t Rnum) (d : fdata Rnum) (i : nat) : R :=
  (vget (x_kp s) (3 + i) * rot_error log3 (d_R d) (x_Rd s) i + vget (x_kd s) (3 + i) * (rot (tr (d_R d)) (ang (x_vd s)) i - d_v d (3 + i)%nat) + rot (tr (d_R d)) (ang (x_ad s)) i)%R.
Definition world_lin (s : se3t Rnum) (d : fdata Rnum) (i : nat) : R :=
  (vget (x_kp s) i * (x_pd s i - d_p d i) + vget (x_kd s) i * (x_vd s i - rot (d_R d) (d_v d) i) + x_ad s i)%R.
Definition world_ang (s : se3t Rnum) (d : fdata Rnum) (i : nat) : R :=
  (vget (x_kp s) (3 + i) * rot (d_R d) (rot_error log3 (d_R d) (x_Rd s)) i + vget (x_kd s) (3 + i) * (x_vd s (3 + i)%nat - rot (d_R d) (ang (d_v d)) i) + x_ad s (3 + i)%nat)%R.
Lemma split6 (P : nat -> Prop) : (forall i, i < 6 -> P i) <-> (forall i, i < 3 -> P i) /\ (forall i, i < 3 -> P (3 + i)).
Proof. split; [intros H; split; intros i Hi; apply H; lia|]. intros [A B] i Hi. destruct (lt_dec i 3) as [L|L]; [apply A; exact L|]. replace i with (3 + (i - 3)) by lia. apply B. lia. Qed.
Theorem se3_meaning_local name nv (s : se3t Rnum) (d : fdata Rnum) (s' : se3t Rnum) : made name nv s -> x_local s = true -> step s (XCompute d) = Ret s' tt -> forall y,
  let a := accel nv (d_J d) (d_a d) y in
  sat (h_c (x_h s')) y <->
    (forall i, i < 3 -> on (x_mask s) i -> a i = local_lin s d i) /\ (forall i, i < 3 -> on (x_mask s) (3 + i) -> ang a i = local_ang s d i).
Proof.
  intros M HLo E y a. destruct (se3_done _ _ _ _ _ _ _ M E) as (_ & _ & _ & _ & _ & _ & _ & _ & D). rewrite (done_sat _ _ _ _ _ _ _ _ _ D y).
  rewrite (split6 (fun i => on (x_mask s) i -> accel nv (se3_J s d) (se3_drift s d) y i = @se3_ades Rnum log3 s d i)).
  assert (A1 : forall i, i < 3 -> @se3_ades Rnum log3 s d i = local_lin s d i).
  { intros i Hi. unfold se3_ades, se3_pe, se3_ve, local_lin. rewrite HLo. rewrite err_lin, !inv_lin by exact Hi. reflexivity. }
  assert (A2 : forall i, i < 3 -> @se3_ades Rnum log3 s d (3 + i) = local_ang s d i).
  { intros i Hi. unfold se3_ades, se3_pe, se3_ve, local_ang. rewrite HLo. rewrite err_ang, !inv_ang by (exact Hi || exact HL). reflexivity. }
  assert (B : forall i, accel nv (se3_J s d) (se3_drift s d) y i = a i) by (intros i; unfold se3_J, se3_drift; rewrite HLo; reflexivity).
  split; intros [H1 H2]; split; intros i Hi Ho.
  - rewrite <- A1, <- B by exact Hi. auto.
  - unfold ang. rewrite <- A2, <- B by exact Hi. auto.
  - rewrite A1, B by exact Hi. auto.
  - rewrite A2, B by exact Hi. apply H2; auto.
Qed.
Theorem se3_meaning_world name nv (s : se3t Rnum) (d : fdata Rnum) (s' : se3t Rnum) : made name nv s -> x_local s = false -> orthogonal (d_R d) -> step s (XCompute d) = Ret s' tt -> forall y,
  let a := accel nv (d_J d) (d_a d) y in
  sat (h_c (x_h s')) y <->
    (forall i, i < 3 -> on (x_mask s) i -> rot (d_R d) a i = world_lin s d i) /\ (forall i, i < 3 -> on (x_mask s) (3 + i) -> rot (d_R d) (ang a) i = world_ang s d i).
Proof.
  intros M HLo O E y a. destruct (se3_done _ _ _ _ _ _ _ M E) as (_ & _ & _ & _ & _ & _ & _ & _ & D). rewrite (done_sat _ _ _ _ _ _ _ _ _ D y).
  rewrite (split6 (fun i => on (x_mask s) i -> accel nv (se3_J s d) (se3_drift s d) y i = @se3_ades Rnum log3 s d i)).
  assert (A1 : forall i, i < 3 -> @se3_ades Rnum log3 s d i = world_lin s d i).
  { intros i Hi. unfold se3_ades, se3_pe, se3_ve, world_lin. rewrite HLo. rewrite !act_lin by exact Hi.
    rewrite (rot_ext _ _ (rot (tr (d_R d)) (vminus (x_pd s) (d_p d)))) by (intros k Hk; apply err_lin; exact Hk). rewrite (proj1 (O _ i Hi)). reflexivity. }
  assert (A2 : forall i, i < 3 -> @se3_ades Rnum log3 s d (3 + i) = world_ang s d i).
  { intros i Hi. unfold se3_ades, se3_pe, se3_ve, world_ang. rewrite HLo. rewrite !act_ang by exact Hi.
    rewrite (rot_ext _ (ang (@se3_error Rnum _ _ _ _ _)) (rot_error log3 (d_R d) (x_Rd s))) by (intros k Hk; apply err_ang; [exact HL|exact Hk]). reflexivity. }
  assert (B1 : forall i, i < 3 -> accel nv (se3_J s d) (se3_drift s d) y i = rot (d_R d) a i) by (intros i Hi; unfold se3_J, se3_drift; rewrite HLo; apply accel_lin; exact Hi).
  assert (B2 : forall i, i < 3 -> accel nv (se3_J s d) (se3_drift s d) y (3 + i) = rot (d_R d) (ang a) i) by (intros i Hi; unfold se3_J, se3_drift; rewrite HLo; apply accel_ang; exact Hi).
  split; intros [H1 H2]; split; intros i Hi Ho.
  - rewrite <- A1, <- B1 by exact Hi. auto.
  - rewrite <- A2, <- B2 by exact Hi. auto.
  - rewrite A1, B1 by exact Hi. auto.
  - rewrite A2, B2 by exact Hi. apply H2; auto.
Qed.
(** * The choice of frame does not matter for isotropic gains and a full mask *)
Definition isotropic (k : vec Rnum) : Prop := exists a b, forall i, i < 3 -> vget k i = a /\ vget k (3 + i) = b.
Definition same_but_frame (s t : se3t Rnum) : Prop :=
  x_kp t = x_kp s /\ x_kd t = x_kd s /\ x_pd t = x_pd s /\ x_Rd t = x_Rd s /\ x_vd t = x_vd s /\ x_ad t = x_ad s /\ x_mask t = x_mask s.
Theorem se3_frame_free name1 name2 nv (s t : se3t Rnum) (d : fdata Rnum) (s' t' : se3t Rnum) : made name1 nv s -> made name2 nv t -> same_but_frame s t -> x_local s = true -> x_local t = false ->
  orthogonal (d_R d) -> isotropic (x_kp s) -> isotropic (x_kd s) -> (forall i, i < 6 -> on (x_mask s) i) ->
  step s (XCompute d) = Ret s' tt -> step t (XCompute d) = Ret t' tt -> forall y, sat (h_c (x_h s')) y <-> sat (h_c (x_h t')) y.
Proof.
  intros M1 M2 (S1 & S2 & S3 & S4 & S5 & S6 & S7) L1 L2 O (a & b & G1) (a' & b' & G2) F E1 E2 y.
  rewrite (se3_meaning_local _ _ _ _ _ M1 L1 E1 y), (se3_meaning_world _ _ _ _ _ M2 L2 O E2 y). set (q := accel nv (d_J d) (d_a d) y).
  assert (W1 : forall i, i < 3 -> world_lin t d i = rot (d_R d) (local_lin s d) i).
  { intros i Hi. unfold world_lin. rewrite S1, S2, S3, S5, S6. destruct (G1 i Hi) as [-> _]. destruct (G2 i Hi) as [-> _].
    rewrite (rot_ext _ (local_lin s d) (fun k => a * rot (tr (d_R d)) (vminus (x_pd s) (d_p d)) k + a' * vminus (rot (tr (d_R d)) (x_vd s)) (d_v d) k + rot (tr (d_R d)) (x_ad s) k)%R).
    - rewrite rot_lincomb, rot_minus. rewrite (proj1 (O (vminus _ _) i Hi)), (proj1 (O (x_vd s) i Hi)), (proj1 (O (x_ad s) i Hi)). unfold vminus. reflexivity.
    - intros k Hk. unfold local_lin. destruct (G1 k Hk) as [-> _]. destruct (G2 k Hk) as [-> _]. reflexivity. }
  assert (W2 : forall i, i < 3 -> world_ang t d i = rot (d_R d) (local_ang s d) i).
  { intros i Hi. unfold world_ang. rewrite S1, S2, S4, S5, S6. destruct (G1 i Hi) as [_ ->]. destruct (G2 i Hi) as [_ ->].
    rewrite (rot_ext _ (local_ang s d) (fun k => b * rot_error log3 (d_R d) (x_Rd s) k + b' * vminus (rot (tr (d_R d)) (ang (x_vd s))) (ang (d_v d)) k + rot (tr (d_R d)) (ang (x_ad s)) k)%R).
    - rewrite rot_lincomb, rot_minus. rewrite (proj1 (O (ang (x_vd s)) i Hi)), (proj1 (O (ang (x_ad s)) i Hi)). reflexivity.
    - intros k Hk. unfold local_ang. destruct (G1 k Hk) as [_ ->]. destruct (G2 k Hk) as [_ ->]. reflexivity. }
  split; intros [H1 H2]; split; intros i Hi Ho.
  - rewrite W1 by exact Hi. apply rot_ext. intros k Hk. apply H1; [exact Hk|apply F; lia].
  - rewrite W2 by exact Hi. apply rot_ext. intros k Hk. apply H2; [exact Hk|apply F; lia].
  - revert i Hi Ho. assert (G : forall i, i < 3 -> q i = local_lin s d i); [|auto]. apply (rot_inj (d_R d)); [exact O|]. intros i Hi. rewrite <- W1 by exact Hi. apply H1; [exact Hi|rewrite S7; apply F; lia].
  - revert i Hi Ho. assert (G : forall i, i < 3 -> ang q i = local_ang s d i); [|auto]. apply (rot_inj (d_R d)); [exact O|]. intros i Hi. rewrite <- W2 by exact Hi. apply H2; [exact Hi|rewrite S7; apply F; lia].
Qed.

(** * Two frames *)
Theorem tf_meaning name nv (s : tft Rnum) (d1 d2 : fdata Rnum) (s' : tft Rnum) : @tf_made Rnum Rtrunc log3 name nv s -> orthogonal (d_R d1) -> @tf_step Rnum Rtrunc log3 s (YCompute d1 d2) = Ret s' tt -> forall y,
  let a1 := accel nv (d_J d1) (d_a d1) y in let a2 := accel nv (d_J d2) (d_a d2) y in
  sat (h_c (y_h s')) y <->
    (forall i, i < 3 -> on (y_mask s) i -> (rot (d_R d1) a1 i - rot (d_R d2) a2 i =
        vget (y_kp s) i * (d_p d2 i - d_p d1 i) + vget (y_kd s) i * (rot (d_R d2) (d_v d2) i - rot (d_R d1) (d_v d1) i))%R) /\
    (forall i, i < 3 -> on (y_mask s) (3 + i) -> (rot (d_R d1) (ang a1) i - rot (d_R d2) (ang a2) i =
        vget (y_kp s) (3 + i) * rot (d_R d1) (rot_error log3 (d_R d1) (d_R d2)) i + vget (y_kd s) (3 + i) * (rot (d_R d2) (ang (d_v d2)) i - rot (d_R d1) (ang (d_v d1)) i))%R).
Proof.
  intros M O E y a1 a2. destruct (tf_done _ _ _ _ _ _ _ _ M E) as (_ & _ & _ & D). rewrite (done_sat _ _ _ _ _ _ _ _ _ D y).
  rewrite (split6 (fun i => on (y_mask s) i -> accel nv (tf_J d1 d2) (tf_drift d1 d2) y i = @tf_ades Rnum log3 s d1 d2 i)).
  assert (B : forall i, accel nv (tf_J d1 d2) (tf_drift d1 d2) y i = (accel nv (@act_mat Rnum (d_R d1) (d_J d1)) (@act Rnum (d_R d1) (d_a d1)) y i - accel nv (@act_mat Rnum (d_R d2) (d_J d2)) (@act Rnum (d_R d2) (d_a d2)) y i)%R).
  { intros i. unfold accel, tf_J, tf_drift. cbn [Rnum nsub car]. rewrite (rsum_ext nv _ (fun c => act_mat (d_R d1) (d_J d1) i c * y c - act_mat (d_R d2) (d_J d2) i c * y c)%R) by (intros; ring).
    rewrite rsum_minus. lra. }
  assert (P1 : forall i, i < 3 -> @tf_ades Rnum log3 s d1 d2 i = (vget (y_kp s) i * (d_p d2 i - d_p d1 i) + vget (y_kd s) i * (rot (d_R d2) (d_v d2) i - rot (d_R d1) (d_v d1) i))%R).
  { intros i Hi. unfold tf_ades, tf_pe, tf_ve. rewrite !act_lin by exact Hi.
    rewrite (rot_ext _ _ (rot (tr (d_R d1)) (vminus (d_p d2) (d_p d1)))) by (intros k Hk; apply err_lin; exact Hk). rewrite (proj1 (O _ i Hi)). reflexivity. }
  assert (P2 : forall i, i < 3 -> @tf_ades Rnum log3 s d1 d2 (3 + i) = (vget (y_kp s) (3 + i) * rot (d_R d1) (rot_error log3 (d_R d1) (d_R d2)) i + vget (y_kd s) (3 + i) * (rot (d_R d2) (ang (d_v d2)) i - rot (d_R d1) (ang (d_v d1)) i))%R).
  { intros i Hi. unfold tf_ades, tf_pe, tf_ve. rewrite !act_ang by exact Hi.
    rewrite (rot_ext _ (ang (@se3_error Rnum _ _ _ _ _)) (rot_error log3 (d_R d1) (d_R d2))) by (intros k Hk; apply err_ang; [exact HL|exact Hk]). reflexivity. }
  split; intros [H1 H2]; split; intros i Hi Ho.
  - rewrite <- P1 by exact Hi. rewrite <- (H1 i Hi Ho), B, !accel_lin by exact Hi. reflexivity.
  - rewrite <- P2 by exact Hi. rewrite <- (H2 i Hi Ho), B, !accel_ang by exact Hi. reflexivity.
  - rewrite P1 by exact Hi. rewrite <- (H1 i Hi Ho), B, !accel_lin by exact Hi. reflexivity.
  - rewrite P2 by exact Hi. rewrite <- (H2 i Hi Ho), B, !accel_ang by exact Hi. reflexivity.
Qed.
End S.

(** * Centre of mass and angular momentum *)
Theorem com_meaning name nv (s : comt Rnum) (d : cdata Rnum) (s' : comt Rnum) : @com_made Rnum Rtrunc name nv s -> com_step Rtrunc s (ZCompute d) = Ret s' tt -> forall y,
  sat (h_c (z_h s')) y <-> forall i, i < 3 -> on (z_mask s) i ->
    accel nv (g_J d) (g_a d) y i = (z_kp s i * (vget (z_val s) i - g_p d i) + z_kd s i * (vget (z_der s) i - g_v d i) + vget (z_sec s) i)%R.
Proof.
  intros M E y. destruct (com_done _ _ _ _ _ _ M E) as (_ & _ & _ & _ & _ & _ & D). rewrite (done_sat _ _ _ _ _ _ _ _ _ D y).
  assert (P : forall i, com_ades s d i = (z_kp s i * (vget (z_val s) i - g_p d i) + z_kd s i * (vget (z_der s) i - g_v d i) + vget (z_sec s) i)%R).
  { intros i. unfold com_ades, com_pe, com_ve, Rnum; cbn. ring. }
  split; intros H i Hi Ho; [rewrite <- P|rewrite P]; auto.
Qed.
Definition am_momentum (nv : nat) (J : rmat) (v : rvec) (i : nat) : R := rsum nv (fun c => J i c * v c)%R.
Lemma am_done name nv (s : amt Rnum) (v : vec Rnum) (d : adata Rnum) (s' : amt Rnum) : am_made name nv s -> am_step s (OCompute v d) = Ret s' tt ->
  vlen v = nv /\ c_kind (o_c s') = CEq /\ c_mat (o_c s') = mkMat 3 nv (am_J d) /\ vlen (c_vec (o_c s')) = 3 /\ o_dr s' = am_d d /\
  (forall i, o_des s' i = (o_kp s i * (vget (o_val s) i - am_momentum nv (am_J d) (vget v) i) + vget (o_der s) i)%R) /\
  (forall i, vget (c_vec (o_c s')) i = (o_des s' i - am_d d i)%R) /\ (forall i, o_L s' i = am_momentum nv (am_J d) (vget v) i).
Proof.
  intros M E. destruct (am_inv _ _ _ M) as [I1 I2 I3 I4 I5]. cbn [am_step] in E. unfold am_compute in E. destruct (guard _) eqn:G; [|discriminate]. cbn [obind] in E.
  unfold guard in G. destruct (_ && _) eqn:X in G; [|discriminate]. apply andb_true_iff in X as [X _]. apply andb_true_iff in X as [X _]. apply Nat.eqb_eq in X.
  destruct (guard _); [|discriminate]. cbn [obind] in E. unfold cset_vec, cset_mat in E. cbn [c_kind] in E. rewrite I2 in E. cbn [obind] in E. injection E as <-.
  cbn [o_c o_des o_dr o_L c_kind c_mat c_vec vlen vget]. rewrite I1 in *. split; [exact X|]. split; [reflexivity|]. split; [reflexivity|]. split; [reflexivity|]. split; [reflexivity|].
  split; [|split; reflexivity]. intros i. unfold am_momentum, Rnum; cbn. ring.
Qed.
Theorem am_meaning name nv (s : amt Rnum) (v : vec Rnum) (d : adata Rnum) (s' : amt Rnum) : @am_made Rnum name nv s -> am_step s (OCompute v d) = Ret s' tt -> forall y,
  sat (o_c s') y <-> forall i, i < 3 ->
    accel nv (am_J d) (am_d d) y i = (o_kp s i * (vget (o_val s) i - am_momentum nv (am_J d) (vget v) i) + vget (o_der s) i)%R.
Proof.
  intros M E y. destruct (am_done _ _ _ _ _ _ M E) as (Lv & A & B & C & D & F & G & _). unfold sat, lhs. rewrite A, B, C. cbn [mcols mget].
  unfold accel. split; intros H i Hi; specialize (H i Hi); rewrite <- F || rewrite <- F in H; rewrite G in *.
  - rewrite H. lra.
  - rewrite <- H. lra.
Qed.

(** * Reported accelerations *)
Theorem se3_reported log3 name nv s d s' dv : @se3_made Rnum Rtrunc log3 name nv s -> @se3_step Rnum Rtrunc log3 s (XCompute d) = Ret s' tt -> vlen dv = nv ->
  exists a, mt_acc true (x_h s') dv = Some a /\
    (sat (h_c (x_h s')) (vget dv) <-> forall j, j < length (ons 6 (x_mask s)) -> vget a j = vget (h_ad (x_h s')) j).
Proof. intros M E L. destruct (se3_done _ _ _ _ _ _ _ M E) as (_ & _ & _ & _ & _ & _ & _ & _ & D). exact (done_match_plus _ _ _ _ _ _ _ _ _ D dv L). Qed.
Theorem tf_reported log3 name nv s d1 d2 s' dv : @tf_made Rnum Rtrunc log3 name nv s -> @tf_step Rnum Rtrunc log3 s (YCompute d1 d2) = Ret s' tt -> vlen dv = nv ->
  exists a, mt_acc true (y_h s') dv = Some a /\
    (sat (h_c (y_h s')) (vget dv) <-> forall j, j < length (ons 6 (y_mask s)) -> vget a j = vget (h_ad (y_h s')) j).
Proof. intros M E L. destruct (tf_done _ _ _ _ _ _ _ _ M E) as (_ & _ & _ & D). exact (done_match_plus _ _ _ _ _ _ _ _ _ D dv L). Qed.
Theorem com_reported name nv s d s' dv : @com_made Rnum Rtrunc name nv s -> com_step Rtrunc s (ZCompute d) = Ret s' tt -> vlen dv = nv ->
  exists a, mt_acc false (z_h s') dv = Some a /\
    (sat (h_c (z_h s')) (vget dv) <-> forall j i, nth_error (ons 3 (z_mask s)) j = Some i -> vget a j = (vget (h_ad (z_h s')) j - 2 * g_a d i)%R).
Proof. intros M E L. destruct (com_done _ _ _ _ _ _ M E) as (_ & _ & _ & _ & _ & _ & D). exact (done_match_minus _ _ _ _ _ _ _ _ _ D dv L). Qed.
Theorem am_reported name nv (s : amt Rnum) (v : vec Rnum) (d : adata Rnum) (s' : amt Rnum) dv : @am_made Rnum name nv s -> am_step s (OCompute v d) = Ret s' tt -> vlen dv = nv ->
  exists a, am_dmomentum s' dv = Some a /\
    (sat (o_c s') (vget dv) <-> forall i, i < 3 -> vget a i = (o_des s' i - 2 * am_d d i)%R).
Proof.
  intros M E L. destruct (am_done _ _ _ _ _ _ M E) as (Lv & A & B & C & D & F & G & _). unfold am_dmomentum, mvec, vsub. rewrite B. cbn [mcols mrows mget]. rewrite L, Nat.eqb_refl.
  cbn [obind vlen Nat.eqb]. eexists. split; [reflexivity|]. unfold sat, lhs. rewrite A, B, C. cbn [mcols mget vget]. rewrite D.
  split; intros H i Hi; specialize (H i Hi); rewrite G in *; cbn [Rnum nsub nmul car] in *; revert H; unfold Rnum; cbn; intros H; lra.
Qed.
