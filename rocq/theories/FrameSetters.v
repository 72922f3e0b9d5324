(** Setters, initial values and reported references of the frame, centre-of-mass and
    angular-momentum tasks. *)
From Coq Require Import String List Arith Bool ZArith Reals Lia Lra.
From Verif Require Import Scalar Outcome Linalg Constraint FormPhysSpec RSum Masks MaskReal FrameTasks FrameTasksP FrameTasksR FrameRefute.
Import ListNotations.
Open Scope nat_scope.

Section S.
Context {K : num}.
Variable toZ : K -> Z.
Variable log3 : (nat -> nat -> K) -> nat -> K.
Notation xstep := (se3_step toZ log3).
Notation ystep := (tf_step toZ log3).
Notation zstep := (com_step toZ).

(** ** TaskSE3Equality *)
(** Gains, frame and mask. *)
Definition se3_conf (s : se3t K) : vec K * vec K * bool * vec K := (x_kp s, x_kd s, x_local s, x_mask s).
(** Reference used by compute and getReference(). *)
Definition se3_refs (s : se3t K) := (x_pd s, x_Rd s, x_vd s, x_ad s, (x_val s, x_der s, x_sec s)).
(** The reference is the placement ([R],[p]) with velocity [v] and acceleration [a]. *)
Definition aims (s : se3t K) (R : nat -> nat -> K) (p v a : nat -> K) : Prop :=
  (forall i, i < 3 -> x_pd s i = p i) /\ (forall i j, i < 3 -> j < 3 -> x_Rd s i j = R i j) /\
  (forall i, i < 6 -> x_vd s i = v i) /\ (forall i, i < 6 -> x_ad s i = a i).
(** [v] holds a placement: the translation, then the rotation column by column. *)
Definition holds (v : vec K) (R : nat -> nat -> K) (p : nat -> K) : Prop :=
  vlen v = 12 /\ (forall i, i < 3 -> vget v i = p i) /\ forall i j, i < 3 -> j < 3 -> vget v (3 + 3 * j + i) = R i j.
Lemma holds_vec R p : holds (se3_to_vec R p) R p.
Proof.
  split; [reflexivity|]. split.
  - intros i Hi. cbn [se3_to_vec vget]. replace (i <? 3) with true by (symmetry; apply Nat.ltb_lt; lia). reflexivity.
  - intros i j Hi Hj. cbn [se3_to_vec vget]. replace (3 + 3 * j + i <? 3) with false by (symmetry; apply Nat.ltb_ge; lia).
    replace (3 + 3 * j + i - 3) with (i + j * 3) by lia. rewrite Nat.mod_add, Nat.div_add by lia. rewrite Nat.mod_small, Nat.div_small by lia. reflexivity.
Qed.
Theorem se3_setters (s : se3t K) :
  (forall k, vlen k = 6 -> exists s', xstep s (XKp k) = Ret s' tt /\ se3_conf s' = (k, x_kd s, x_local s, x_mask s) /\ se3_refs s' = se3_refs s /\ x_h s' = x_h s) /\
  (forall k, vlen k = 6 -> exists s', xstep s (XKd k) = Ret s' tt /\ se3_conf s' = (x_kp s, k, x_local s, x_mask s) /\ se3_refs s' = se3_refs s /\ x_h s' = x_h s) /\
  (forall b, exists s', xstep s (XLocal b) = Ret s' tt /\ se3_conf s' = (x_kp s, x_kd s, b, x_mask s) /\ se3_refs s' = se3_refs s /\ x_h s' = x_h s) /\
  (forall k, vlen k <> 6 -> xstep s (XKp k) = Exc s /\ xstep s (XKd k) = Exc s) /\
  (forall jk m s', xstep s (XMask jk m) = Ret s' tt -> se3_conf s' = (x_kp s, x_kd s, x_local s, m) /\ se3_refs s' = se3_refs s) /\
  (forall d s', xstep s (XCompute d) = Ret s' tt -> se3_conf s' = se3_conf s /\ se3_refs s' = se3_refs s).
Proof.
  cbn [se3_step]. repeat split.
  - intros k ->. rewrite Nat.eqb_refl. eexists. repeat split.
  - intros k ->. rewrite Nat.eqb_refl. eexists. repeat split.
  - intros b. eexists. repeat split.
  - apply Nat.eqb_neq in H. rewrite H. reflexivity.
  - apply Nat.eqb_neq in H. rewrite H. reflexivity.
  - destruct (mt_mask _ _ _ _ _); [injection H as <-; reflexivity|discriminate].
  - destruct (mt_mask _ _ _ _ _); [injection H as <-; reflexivity|discriminate].
  - unfold se3_compute in H. destruct (guard _) as [[]|]; cbn [obind] in H; [|discriminate]. destruct (mt_rows _ _ _ _ _ _ _ _ _); cbn [obind] in H; [injection H as <-; reflexivity|discriminate].
  - unfold se3_compute in H. destruct (guard _) as [[]|]; cbn [obind] in H; [|discriminate]. destruct (mt_rows _ _ _ _ _ _ _ _ _); cbn [obind] in H; [injection H as <-; reflexivity|discriminate].
Qed.
Theorem se3_references (s : se3t K) :
  (forall R p val der sec, holds val R p -> vlen der = 6 -> vlen sec = 6 -> exists s', xstep s (XRef val der sec) = Ret s' tt /\
     aims s' R p (vget der) (vget sec) /\ (x_val s', x_der s', x_sec s') = (val, der, sec) /\ se3_conf s' = se3_conf s /\ x_h s' = x_h s) /\
  (forall R p, exists s', xstep s (XRefSE3 R p) = Ret s' tt /\
     aims s' R p (fun _ => n0) (fun _ => n0) /\ holds (x_val s') R p /\ se3_conf s' = se3_conf s /\ x_h s' = x_h s).
Proof.
  split.
  - intros R p val der sec (L & P & Q) Ld Ls. cbn [se3_step]. unfold se3_ref. rewrite L, Ld, Ls. cbn [Nat.eqb andb].
    eexists. split; [reflexivity|]. split; [|repeat split]. unfold aims. cbn [x_pd x_Rd x_vd x_ad vec_to_se3 fst snd].
    split; [exact P|]. split; [|split; reflexivity]. intros i j Hi Hj. rewrite <- Q by assumption. f_equal; lia.
  - intros R p. assert (H := holds_vec R p). destruct H as (L & P & Q). cbn [se3_step]. unfold se3_ref. rewrite L. cbn [Nat.eqb andb vzero vlen].
    eexists. split; [reflexivity|]. split; [|split; [|split; reflexivity]].
    + unfold aims. cbn [x_pd x_Rd x_vd x_ad vec_to_se3 fst snd]. split; [exact P|]. split; [|split; reflexivity].
      intros i j Hi Hj. rewrite <- Q by assumption. f_equal; lia.
    + cbn [x_val]. split; [exact L|]. split; [exact P|exact Q].
Qed.
(** position(), position_ref() (translation and rotation), velocity(), velocity_ref(). *)
Theorem se3_reports (s : se3t K) d s' : xstep s (XCompute d) = Ret s' tt ->
  holds (x_p s') (d_R d) (d_p d) /\ holds (x_pr s') (x_Rd s) (x_pd s) /\
  veq (x_v s') (mkVec 6 (d_v d)) /\ veq (x_vr s') (mkVec 6 (x_vd s)).
Proof.
  cbn [se3_step]. unfold se3_compute. destruct (guard _) as [[]|]; cbn [obind]; [|discriminate].
  destruct (mt_rows _ _ _ _ _ _ _ _ _); cbn [obind]; [|discriminate]. intros H. injection H as <-. cbn [x_p x_pr x_v x_vr].
  split; [apply holds_vec|]. split; [apply holds_vec|]. repeat split.
Qed.
(** A new task: no gains, all components, local frame, at rest at the origin; the sample
    returned by getReference() is zero, including its rotation. *)
Theorem se3_initial jk name nv s0 : se3_new toZ jk name nv = Some s0 ->
  se3_conf s0 = (vzero 6, vzero 6, true, mkVec 6 (fun _ => n1)) /\
  aims s0 (fun i j => if i =? j then n1 else n0) (fun _ => n0) (fun _ => n0) (fun _ => n0) /\
  (x_val s0, x_der s0, x_sec s0) = (vzero 12, vzero 6, vzero 6).
Proof.
  unfold se3_new. destruct (mt_mask _ _ _ _ _); cbn [obind]; [|discriminate]. intros H. injection H as <-. repeat split.
Qed.

(** ** TaskTwoFramesEquality *)
Definition tf_conf (s : tft K) : vec K * vec K * vec K := (y_kp s, y_kd s, y_mask s).
Theorem tf_setters (s : tft K) :
  (forall k, vlen k = 6 -> exists s', ystep s (YKp k) = Ret s' tt /\ tf_conf s' = (k, y_kd s, y_mask s) /\ y_h s' = y_h s) /\
  (forall k, vlen k = 6 -> exists s', ystep s (YKd k) = Ret s' tt /\ tf_conf s' = (y_kp s, k, y_mask s) /\ y_h s' = y_h s) /\
  (forall jk m s', ystep s (YMask jk m) = Ret s' tt -> tf_conf s' = (y_kp s, y_kd s, m)) /\
  (forall d1 d2 s', ystep s (YCompute d1 d2) = Ret s' tt -> tf_conf s' = tf_conf s).
Proof.
  cbn [tf_step]. repeat split.
  - intros k ->. rewrite Nat.eqb_refl. eexists. repeat split.
  - intros k ->. rewrite Nat.eqb_refl. eexists. repeat split.
  - intros jk m s' H. destruct (mt_mask _ _ _ _ _); [injection H as <-; reflexivity|discriminate].
  - intros d1 d2 s' H. destruct (guard _) as [[]|]; cbn [obind] in H; [|discriminate]. destruct (mt_rows _ _ _ _ _ _ _ _ _); [injection H as <-; reflexivity|discriminate].
Qed.
Theorem tf_initial jk name nv s0 : tf_new toZ jk name nv = Some s0 -> tf_conf s0 = (vzero 6, vzero 6, mkVec 6 (fun _ => n1)).
Proof. unfold tf_new. destruct (mt_mask _ _ _ _ _); cbn [obind]; [|discriminate]. intros H. injection H as <-. reflexivity. Qed.

(** ** TaskComEquality *)
Definition com_conf (s : comt K) := (z_kp s, z_kd s, z_mask s, (z_val s, z_der s, z_sec s)).
Theorem com_setters (s : comt K) :
  (forall k, vlen k = 3 -> exists s', zstep s (ZKp k) = Ret s' tt /\ com_conf s' = (vget k, z_kd s, z_mask s, (z_val s, z_der s, z_sec s)) /\ z_h s' = z_h s) /\
  (forall k, vlen k = 3 -> exists s', zstep s (ZKd k) = Ret s' tt /\ com_conf s' = (z_kp s, vget k, z_mask s, (z_val s, z_der s, z_sec s)) /\ z_h s' = z_h s) /\
  (forall a b c, exists s', zstep s (ZRef a b c) = Ret s' tt /\ com_conf s' = (z_kp s, z_kd s, z_mask s, (a, b, c)) /\ z_h s' = z_h s) /\
  (forall k, vlen k <> 3 -> zstep s (ZKp k) = Exc s /\ zstep s (ZKd k) = Exc s) /\
  (forall jk m, vlen m <> 3 -> zstep s (ZMask jk m) = Exc s) /\
  (forall jk m s', zstep s (ZMask jk m) = Ret s' tt -> com_conf s' = (z_kp s, z_kd s, m, (z_val s, z_der s, z_sec s))) /\
  (forall d s', zstep s (ZCompute d) = Ret s' tt -> com_conf s' = com_conf s).
Proof.
  cbn [com_step]. repeat split.
  - intros k ->. rewrite Nat.eqb_refl. eexists. repeat split.
  - intros k ->. rewrite Nat.eqb_refl. eexists. repeat split.
  - intros a b c. eexists. repeat split.
  - apply Nat.eqb_neq in H. rewrite H. reflexivity.
  - apply Nat.eqb_neq in H. rewrite H. reflexivity.
  - intros jk m H. apply Nat.eqb_neq in H. rewrite H. reflexivity.
  - intros jk m s' H. destruct (vlen m =? 3); [|discriminate]. destruct (mt_mask _ _ _ _ _); [injection H as <-; reflexivity|discriminate].
  - intros d s' H. destruct (guard _) as [[]|]; cbn [obind] in H; [|discriminate]. destruct (mt_rows _ _ _ _ _ _ _ _ _); [injection H as <-; reflexivity|discriminate].
Qed.
Theorem com_initial jk name nv s0 : com_new toZ jk name nv = Some s0 ->
  (forall i, z_kp s0 i = n0 /\ z_kd s0 i = n0) /\ z_mask s0 = mkVec 3 (fun _ => n1) /\ (z_val s0, z_der s0, z_sec s0) = (vzero 3, vzero 3, vzero 3).
Proof. unfold com_new. destruct (mt_mask _ _ _ _ _); cbn [obind]; [|discriminate]. intros H. injection H as <-. repeat split. Qed.

(** ** TaskAMEquality *)
Definition am_conf (s : amt K) := (o_kp s, o_kd s, (o_val s, o_der s, o_sec s)).
Theorem am_setters (s : amt K) :
  (forall k, vlen k = 3 -> exists s', am_step s (OKp k) = Ret s' tt /\ am_conf s' = (vget k, o_kd s, (o_val s, o_der s, o_sec s)) /\ o_c s' = o_c s) /\
  (forall k, vlen k = 3 -> exists s', am_step s (OKd k) = Ret s' tt /\ am_conf s' = (o_kp s, vget k, (o_val s, o_der s, o_sec s)) /\ o_c s' = o_c s) /\
  (forall a b c, exists s', am_step s (ORef a b c) = Ret s' tt /\ am_conf s' = (o_kp s, o_kd s, (a, b, c)) /\ o_c s' = o_c s) /\
  (forall k, vlen k <> 3 -> am_step s (OKp k) = Exc s /\ am_step s (OKd k) = Exc s) /\
  (forall v d s', am_step s (OCompute v d) = Ret s' tt -> am_conf s' = am_conf s).
Proof.
  cbn [am_step]. repeat split.
  - intros k ->. rewrite Nat.eqb_refl. eexists. repeat split.
  - intros k ->. rewrite Nat.eqb_refl. eexists. repeat split.
  - intros a b c. eexists. repeat split.
  - apply Nat.eqb_neq in H. rewrite H. reflexivity.
  - apply Nat.eqb_neq in H. rewrite H. reflexivity.
  - intros v d s' H. unfold am_compute in H. destruct (guard _) as [[]|]; cbn [obind] in H; [|discriminate].
    destruct (guard _) as [[]|]; cbn [obind] in H; [|discriminate]. destruct (cset_vec _ _); cbn [obind] in H; [|discriminate]. injection H as <-. reflexivity.
Qed.
Theorem am_initial name nv : (forall i, o_kp (am_new (K := K) name nv) i = n0 /\ o_kd (am_new (K := K) name nv) i = n0) /\
  (o_val (am_new (K := K) name nv), o_der (am_new (K := K) name nv), o_sec (am_new (K := K) name nv)) = (vzero 3, vzero 3, vzero 3).
Proof. repeat split. Qed.
Theorem tasks_initial jk name nv :
  (forall s0, se3_new toZ jk name nv = Some s0 -> se3_conf s0 = (vzero 6, vzero 6, true, mkVec 6 (fun _ => n1)) /\
     aims s0 (fun i j => if i =? j then n1 else n0) (fun _ => n0) (fun _ => n0) (fun _ => n0) /\
     (x_val s0, x_der s0, x_sec s0) = (vzero 12, vzero 6, vzero 6)) /\
  (forall s0 : tft K, tf_new toZ jk name nv = Some s0 -> tf_conf s0 = (vzero 6, vzero 6, mkVec 6 (fun _ => n1))) /\
  (forall s0 : comt K, com_new toZ jk name nv = Some s0 -> (forall i, z_kp s0 i = n0 /\ z_kd s0 i = n0) /\ z_mask s0 = mkVec 3 (fun _ => n1) /\ (z_val s0, z_der s0, z_sec s0) = (vzero 3, vzero 3, vzero 3)) /\
  (forall s0 : amt K, am_new name nv = s0 -> (forall i, o_kp s0 i = n0 /\ o_kd s0 i = n0) /\ (o_val s0, o_der s0, o_sec s0) = (vzero 3, vzero 3, vzero 3)).
Proof.
  split; [exact (se3_initial jk name nv)|]. split; [exact (tf_initial jk name nv)|]. split; [exact (com_initial jk name nv)|].
  intros s0 <-. exact (am_initial name nv).
Qed.
End S.
(** momentum(), momentum_error(), getDesiredMomentumDerivative() after compute. *)
Theorem am_reports name nv (s : amt Rnum) v d s' : @am_made Rnum name nv s -> am_step s (OCompute v d) = Ret s' tt -> forall i, i < 3 ->
  o_L s' i = am_momentum nv (am_J d) (vget v) i /\
  o_err s' i = (am_momentum nv (am_J d) (vget v) i - vget (o_val s) i)%R /\
  o_des s' i = (o_kp s i * (vget (o_val s) i - am_momentum nv (am_J d) (vget v) i) + vget (o_der s) i)%R.
Proof.
  intros M E i Hi. destruct (am_done name nv s v d s' M E) as (_ & _ & _ & _ & _ & D & _ & L). split; [apply L|]. split; [|apply D]. rewrite <- L.
  cbn [am_step] in E. unfold am_compute in E. destruct (guard _) as [[]|]; cbn [obind] in E; [|discriminate].
  destruct (guard _) as [[]|]; cbn [obind] in E; [|discriminate]. destruct (cset_vec _ _); cbn [obind] in E; [|discriminate]. injection E as <-. reflexivity.
Qed.
