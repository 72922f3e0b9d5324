(** Properties C42, C60 - C63: frame, centre-of-mass and angular-momentum tasks.  Only
    statements; the proofs are in FrameTasksP.v, FrameTasksR.v, FrameRefute.v and FrameSetters.v.
    [se3_made], [tf_made], [com_made], [am_made]: tasks reached by any calls at all.
    [on m i]: component [i] has mask 1; [ons n m]: the list of those components.
    [accel nv J drift y i]: acceleration J y + drift of component [i].
    [log3] is pinocchio::log3 ([reads9]: it depends on the nine entries). *)
From Coq Require Import String List Arith Bool ZArith Reals Lia Lra.
From Verif Require Import Scalar Outcome Linalg Constraint FormPhysSpec RSum Masks MaskReal FrameTasks FrameTasksP FrameTasksR FrameRefute FrameSetters.
Import ListNotations.
Open Scope list_scope.
Open Scope nat_scope.

(** A log3 that is exact for small angles: the antisymmetric part. *)
Definition vee (A : rmat) : rvec := fun i => ((A ((i + 2) mod 3)%nat ((i + 1) mod 3)%nat - A ((i + 1) mod 3)%nat ((i + 2) mod 3)%nat) / 2)%R.
Example log3_case : reads9 vee.
Proof. intros A B H i Hi. unfold vee. rewrite !H by (apply Nat.mod_upper_bound; lia). reflexivity. Qed.
Example rotation_case : orthogonal Rz /\ Rz 0 1 = (-1)%R.
Proof. split; [exact Rz_orth|reflexivity]. Qed.

(** ** C42 reported accelerations *)
Theorem C42_se3 : forall log3 name nv s d s' dv, @se3_made Rnum Rtrunc log3 name nv s -> @se3_step Rnum Rtrunc log3 s (XCompute d) = Ret s' tt -> vlen dv = nv ->
  exists a, mt_acc true (x_h s') dv = Some a /\
    (sat (h_c (x_h s')) (vget dv) <-> forall j, j < length (ons 6 (x_mask s)) -> vget a j = vget (h_ad (x_h s')) j).
Proof. exact se3_reported. Qed.
Print Assumptions C42_se3.
Theorem C42_two_frames : forall log3 name nv s d1 d2 s' dv, @tf_made Rnum Rtrunc log3 name nv s -> @tf_step Rnum Rtrunc log3 s (YCompute d1 d2) = Ret s' tt -> vlen dv = nv ->
  exists a, mt_acc true (y_h s') dv = Some a /\
    (sat (h_c (y_h s')) (vget dv) <-> forall j, j < length (ons 6 (y_mask s)) -> vget a j = vget (h_ad (y_h s')) j).
Proof. exact tf_reported. Qed.
Print Assumptions C42_two_frames.
(** CoM and angular momentum: the drift has the wrong sign.  Solutions report the desired
    acceleration minus twice the drift. *)
Theorem C42_com : forall name nv (s : comt Rnum) (d : cdata Rnum) s' dv, @com_made Rnum Rtrunc name nv s -> com_step Rtrunc s (ZCompute d) = Ret s' tt -> vlen dv = nv ->
  exists a, mt_acc false (z_h s') dv = Some a /\
    (sat (h_c (z_h s')) (vget dv) <-> forall j i, nth_error (ons 3 (z_mask s)) j = Some i -> vget a j = (vget (h_ad (z_h s')) j - 2 * g_a d i)%R).
Proof. exact com_reported. Qed.
Print Assumptions C42_com.
Theorem C42_am : forall name nv (s : amt Rnum) (v : vec Rnum) (d : adata Rnum) (s' : amt Rnum) dv, @am_made Rnum name nv s -> am_step s (OCompute v d) = Ret s' tt -> vlen dv = nv ->
  exists a, am_dmomentum s' dv = Some a /\
    (sat (o_c s') (vget dv) <-> forall i, i < 3 -> vget a i = (o_des s' i - 2 * am_d d i)%R).
Proof. exact am_reported. Qed.
Print Assumptions C42_am.
Theorem C42_com_refuted : forall name, exists (s s' : comt Rnum) (d : cdata Rnum) (dv a : vec Rnum), com_made Rtrunc name 3 s /\ com_step Rtrunc s (ZCompute d) = Ret s' tt /\ vlen dv = 3 /\
  sat (h_c (z_h s')) (vget dv) /\ mt_acc false (z_h s') dv = Some a /\ vget a 0 <> vget (h_ad (z_h s')) 0.
Proof. exact com_refuted. Qed.
Print Assumptions C42_com_refuted.
Theorem C42_am_refuted : forall name, exists (s s' : amt Rnum) (v : vec Rnum) (d : adata Rnum) (dv a : vec Rnum), am_made name 3 s /\ am_step s (OCompute v d) = Ret s' tt /\ vlen dv = 3 /\
  sat (o_c s') (vget dv) /\ am_dmomentum s' dv = Some a /\ vget a 0 <> o_des s' 0.
Proof. exact am_refuted. Qed.
Print Assumptions C42_am_refuted.
(** A task with gains, a rotated reference and a moving frame runs. *)
Definition ex_val : vec Rnum := v12 (fun i => match i with 0 => 1%R | 4 => 1%R | 6 => (-1)%R | 11 => 1%R | _ => 0%R end).
Definition ex_data : fdata Rnum := @mkFd Rnum Rz (fun _ => 0%R) (unit_k 1) (unit_k 4) id6.
Example C42_case : forall b, exists s s', @se3_made Rnum Rtrunc vee "se3" 6 s /\ x_local s = b /\ vget (x_kp s) 1 = 10%R /\ vget (x_kd s) 4 = 3%R /\ x_Rd s 1 0 = 1%R /\
  @se3_step Rnum Rtrunc vee s (XCompute ex_data) = Ret s' tt /\ length (ons 6 (x_mask s)) = 6.
Proof.
  intros b. destruct (se3_config vee "se3" 6 (v6 (fun _ => 10%R)) (v6 (fun _ => 3%R)) ex_val (v6 (unit_k 0)) (v6 (unit_k 5)) b) as (s & M & A & B & C & D & _ & R & _); auto.
  destruct (se3_runs vee "se3" 6 s ex_data M A) as [s' E]. exists s, s'. split; [exact M|]. split; [exact B|]. rewrite C, D, R, A, ons_ones.
  split; [reflexivity|]. split; [reflexivity|]. split; [reflexivity|]. split; [exact E|reflexivity].
Qed.
Example C42_case2 : exists s, @tf_made Rnum Rtrunc vee "tf" 6 s /\ y_mask s = ones_n 6.
Proof. exact (tf_start vee "tf" 6). Qed.

(** ** C60 the constraints impose the PD laws *)
(** Local frame: errors rotated into the frame. *)
Theorem C60_se3_local : forall log3, reads9 log3 -> forall name nv (s : se3t Rnum) (d : fdata Rnum) s', @se3_made Rnum Rtrunc log3 name nv s -> x_local s = true ->
  @se3_step Rnum Rtrunc log3 s (XCompute d) = Ret s' tt -> forall y,
  let a := accel nv (d_J d) (d_a d) y in
  sat (h_c (x_h s')) y <->
    (forall i, i < 3 -> on (x_mask s) i -> a i = (vget (x_kp s) i * rot (tr (d_R d)) (vminus (x_pd s) (d_p d)) i
        + vget (x_kd s) i * (rot (tr (d_R d)) (x_vd s) i - d_v d i) + rot (tr (d_R d)) (x_ad s) i)%R) /\
    (forall i, i < 3 -> on (x_mask s) (3 + i) -> ang a i = (vget (x_kp s) (3 + i) * rot_error log3 (d_R d) (x_Rd s) i
        + vget (x_kd s) (3 + i) * (rot (tr (d_R d)) (ang (x_vd s)) i - d_v d (3 + i)%nat) + rot (tr (d_R d)) (ang (x_ad s)) i)%R).
Proof. exact se3_meaning_local. Qed.
Print Assumptions C60_se3_local.
(** World axes. *)
Theorem C60_se3_world : forall log3, reads9 log3 -> forall name nv (s : se3t Rnum) (d : fdata Rnum) s', @se3_made Rnum Rtrunc log3 name nv s -> x_local s = false -> orthogonal (d_R d) ->
  @se3_step Rnum Rtrunc log3 s (XCompute d) = Ret s' tt -> forall y,
  let a := accel nv (d_J d) (d_a d) y in
  sat (h_c (x_h s')) y <->
    (forall i, i < 3 -> on (x_mask s) i -> rot (d_R d) a i = (vget (x_kp s) i * (x_pd s i - d_p d i)
        + vget (x_kd s) i * (x_vd s i - rot (d_R d) (d_v d) i) + x_ad s i)%R) /\
    (forall i, i < 3 -> on (x_mask s) (3 + i) -> rot (d_R d) (ang a) i = (vget (x_kp s) (3 + i) * rot (d_R d) (rot_error log3 (d_R d) (x_Rd s)) i
        + vget (x_kd s) (3 + i) * (x_vd s (3 + i)%nat - rot (d_R d) (ang (d_v d)) i) + x_ad s (3 + i)%nat)%R).
Proof. exact se3_meaning_world. Qed.
Print Assumptions C60_se3_world.
Theorem C60_two_frames : forall log3, reads9 log3 -> forall name nv (s : tft Rnum) (d1 d2 : fdata Rnum) (s' : tft Rnum), @tf_made Rnum Rtrunc log3 name nv s -> orthogonal (d_R d1) ->
  @tf_step Rnum Rtrunc log3 s (YCompute d1 d2) = Ret s' tt -> forall y,
  let a1 := accel nv (d_J d1) (d_a d1) y in let a2 := accel nv (d_J d2) (d_a d2) y in
  sat (h_c (y_h s')) y <->
    (forall i, i < 3 -> on (y_mask s) i -> (rot (d_R d1) a1 i - rot (d_R d2) a2 i =
        vget (y_kp s) i * (d_p d2 i - d_p d1 i) + vget (y_kd s) i * (rot (d_R d2) (d_v d2) i - rot (d_R d1) (d_v d1) i))%R) /\
    (forall i, i < 3 -> on (y_mask s) (3 + i) -> (rot (d_R d1) (ang a1) i - rot (d_R d2) (ang a2) i =
        vget (y_kp s) (3 + i) * rot (d_R d1) (rot_error log3 (d_R d1) (d_R d2)) i + vget (y_kd s) (3 + i) * (rot (d_R d2) (ang (d_v d2)) i - rot (d_R d1) (ang (d_v d1)) i))%R).
Proof. exact tf_meaning. Qed.
Print Assumptions C60_two_frames.
Theorem C60_com : forall name nv (s : comt Rnum) (d : cdata Rnum) (s' : comt Rnum), @com_made Rnum Rtrunc name nv s -> com_step Rtrunc s (ZCompute d) = Ret s' tt -> forall y,
  sat (h_c (z_h s')) y <-> forall i, i < 3 -> on (z_mask s) i ->
    accel nv (g_J d) (g_a d) y i = (z_kp s i * (vget (z_val s) i - g_p d i) + z_kd s i * (vget (z_der s) i - g_v d i) + vget (z_sec s) i)%R.
Proof. exact com_meaning. Qed.
Print Assumptions C60_com.
Theorem C60_am : forall name nv (s : amt Rnum) (v : vec Rnum) (d : adata Rnum) (s' : amt Rnum), @am_made Rnum name nv s -> am_step s (OCompute v d) = Ret s' tt -> forall y,
  sat (o_c s') y <-> forall i, i < 3 ->
    accel nv (am_J d) (am_d d) y i = (o_kp s i * (vget (o_val s) i - am_momentum nv (am_J d) (vget v) i) + vget (o_der s) i)%R.
Proof. exact am_meaning. Qed.
Print Assumptions C60_am.
(** The setters store exactly their arguments; compute changes no gain, mask or reference. *)
Theorem C60_se3_setters : forall (K : num) (toZ : K -> Z) log3 (s : se3t K), let step := se3_step toZ log3 in
  (forall k, vlen k = 6 -> exists s', step s (XKp k) = Ret s' tt /\ se3_conf s' = (k, x_kd s, x_local s, x_mask s) /\ se3_refs s' = se3_refs s /\ x_h s' = x_h s) /\
  (forall k, vlen k = 6 -> exists s', step s (XKd k) = Ret s' tt /\ se3_conf s' = (x_kp s, k, x_local s, x_mask s) /\ se3_refs s' = se3_refs s /\ x_h s' = x_h s) /\
  (forall b, exists s', step s (XLocal b) = Ret s' tt /\ se3_conf s' = (x_kp s, x_kd s, b, x_mask s) /\ se3_refs s' = se3_refs s /\ x_h s' = x_h s) /\
  (forall k, vlen k <> 6 -> step s (XKp k) = Exc s /\ step s (XKd k) = Exc s) /\
  (forall jk m s', step s (XMask jk m) = Ret s' tt -> se3_conf s' = (x_kp s, x_kd s, x_local s, m) /\ se3_refs s' = se3_refs s) /\
  (forall d s', step s (XCompute d) = Ret s' tt -> se3_conf s' = se3_conf s /\ se3_refs s' = se3_refs s).
Proof. exact @se3_setters. Qed.
Print Assumptions C60_se3_setters.
(** [holds val R p]: the 12 entries are p and the columns of R; [aims s R p v a]: the law
    of C60_se3_* uses this reference. *)
Theorem C60_se3_references : forall (K : num) (toZ : K -> Z) log3 (s : se3t K), let step := se3_step toZ log3 in
  (forall R p val der sec, holds val R p -> vlen der = 6 -> vlen sec = 6 -> exists s', step s (XRef val der sec) = Ret s' tt /\
     aims s' R p (vget der) (vget sec) /\ (x_val s', x_der s', x_sec s') = (val, der, sec) /\ se3_conf s' = se3_conf s /\ x_h s' = x_h s) /\
  (forall R p, exists s', step s (XRefSE3 R p) = Ret s' tt /\
     aims s' R p (fun _ => n0) (fun _ => n0) /\ holds (x_val s') R p /\ se3_conf s' = se3_conf s /\ x_h s' = x_h s).
Proof. exact @se3_references. Qed.
Print Assumptions C60_se3_references.
Theorem C60_tf_setters : forall (K : num) (toZ : K -> Z) log3 (s : tft K), let step := tf_step toZ log3 in
  (forall k, vlen k = 6 -> exists s', step s (YKp k) = Ret s' tt /\ tf_conf s' = (k, y_kd s, y_mask s) /\ y_h s' = y_h s) /\
  (forall k, vlen k = 6 -> exists s', step s (YKd k) = Ret s' tt /\ tf_conf s' = (y_kp s, k, y_mask s) /\ y_h s' = y_h s) /\
  (forall jk m s', step s (YMask jk m) = Ret s' tt -> tf_conf s' = (y_kp s, y_kd s, m)) /\
  (forall d1 d2 s', step s (YCompute d1 d2) = Ret s' tt -> tf_conf s' = tf_conf s).
Proof. exact @tf_setters. Qed.
Print Assumptions C60_tf_setters.
Theorem C60_com_setters : forall (K : num) (toZ : K -> Z) (s : comt K), let step := com_step toZ in
  (forall k, vlen k = 3 -> exists s', step s (ZKp k) = Ret s' tt /\ com_conf s' = (vget k, z_kd s, z_mask s, (z_val s, z_der s, z_sec s)) /\ z_h s' = z_h s) /\
  (forall k, vlen k = 3 -> exists s', step s (ZKd k) = Ret s' tt /\ com_conf s' = (z_kp s, vget k, z_mask s, (z_val s, z_der s, z_sec s)) /\ z_h s' = z_h s) /\
  (forall a b c, exists s', step s (ZRef a b c) = Ret s' tt /\ com_conf s' = (z_kp s, z_kd s, z_mask s, (a, b, c)) /\ z_h s' = z_h s) /\
  (forall k, vlen k <> 3 -> step s (ZKp k) = Exc s /\ step s (ZKd k) = Exc s) /\
  (forall jk m, vlen m <> 3 -> step s (ZMask jk m) = Exc s) /\
  (forall jk m s', step s (ZMask jk m) = Ret s' tt -> com_conf s' = (z_kp s, z_kd s, m, (z_val s, z_der s, z_sec s))) /\
  (forall d s', step s (ZCompute d) = Ret s' tt -> com_conf s' = com_conf s).
Proof. exact @com_setters. Qed.
Print Assumptions C60_com_setters.
Theorem C60_am_setters : forall (K : num) (s : amt K),
  (forall k, vlen k = 3 -> exists s', am_step s (OKp k) = Ret s' tt /\ am_conf s' = (vget k, o_kd s, (o_val s, o_der s, o_sec s)) /\ o_c s' = o_c s) /\
  (forall k, vlen k = 3 -> exists s', am_step s (OKd k) = Ret s' tt /\ am_conf s' = (o_kp s, vget k, (o_val s, o_der s, o_sec s)) /\ o_c s' = o_c s) /\
  (forall a b c, exists s', am_step s (ORef a b c) = Ret s' tt /\ am_conf s' = (o_kp s, o_kd s, (a, b, c)) /\ o_c s' = o_c s) /\
  (forall k, vlen k <> 3 -> am_step s (OKp k) = Exc s /\ am_step s (OKd k) = Exc s) /\
  (forall v d s', am_step s (OCompute v d) = Ret s' tt -> am_conf s' = am_conf s).
Proof. exact @am_setters. Qed.
Print Assumptions C60_am_setters.
(** New tasks: zero gains, every component, references zero (identity placement for the SE3
    task, whose getReference() nevertheless returns twelve zeros). *)
Theorem C60_initial : forall (K : num) (toZ : K -> Z) jk name nv,
  (forall s0, se3_new toZ jk name nv = Some s0 -> se3_conf s0 = (vzero 6, vzero 6, true, mkVec 6 (fun _ => n1)) /\
     aims s0 (fun i j => if i =? j then n1 else n0) (fun _ => n0) (fun _ => n0) (fun _ => n0) /\
     (x_val s0, x_der s0, x_sec s0) = (vzero 12, vzero 6, vzero 6)) /\
  (forall s0 : tft K, tf_new toZ jk name nv = Some s0 -> tf_conf s0 = (vzero 6, vzero 6, mkVec 6 (fun _ => n1))) /\
  (forall s0 : comt K, com_new toZ jk name nv = Some s0 -> (forall i, z_kp s0 i = n0 /\ z_kd s0 i = n0) /\ z_mask s0 = mkVec 3 (fun _ => n1) /\ (z_val s0, z_der s0, z_sec s0) = (vzero 3, vzero 3, vzero 3)) /\
  (forall s0 : amt K, am_new name nv = s0 -> (forall i, o_kp s0 i = n0 /\ o_kd s0 i = n0) /\ (o_val s0, o_der s0, o_sec s0) = (vzero 3, vzero 3, vzero 3)).
Proof. exact @tasks_initial. Qed.
Print Assumptions C60_initial.

(** ** C61 the choice of the frame *)
Theorem C61_frame : forall log3, reads9 log3 -> forall name1 name2 nv (s t : se3t Rnum) (d : fdata Rnum) (s' t' : se3t Rnum),
  @se3_made Rnum Rtrunc log3 name1 nv s -> @se3_made Rnum Rtrunc log3 name2 nv t -> same_but_frame s t -> x_local s = true -> x_local t = false ->
  orthogonal (d_R d) -> isotropic (x_kp s) -> isotropic (x_kd s) -> (forall i, i < 6 -> on (x_mask s) i) ->
  @se3_step Rnum Rtrunc log3 s (XCompute d) = Ret s' tt -> @se3_step Rnum Rtrunc log3 t (XCompute d) = Ret t' tt ->
  forall y, sat (h_c (x_h s')) y <-> sat (h_c (x_h t')) y.
Proof. exact se3_frame_free. Qed.
Print Assumptions C61_frame.
Theorem C61_gains_refuted : forall log3 name1 name2, reads9 log3 -> exists (s t s' t' : se3t Rnum) (d : fdata Rnum) y,
  se3_made Rtrunc log3 name1 6 s /\ se3_made Rtrunc log3 name2 6 t /\ same_but_frame s t /\ x_local s = true /\ x_local t = false /\
  orthogonal (d_R d) /\ (forall i, i < 6 -> on (x_mask s) i) /\
  @se3_step Rnum Rtrunc log3 s (XCompute d) = Ret s' tt /\ @se3_step Rnum Rtrunc log3 t (XCompute d) = Ret t' tt /\ sat (h_c (x_h s')) y /\ ~ sat (h_c (x_h t')) y.
Proof. exact anisotropic_refuted. Qed.
Print Assumptions C61_gains_refuted.
Example C61_case : exists s t s' t', @se3_made Rnum Rtrunc vee "a" 6 s /\ @se3_made Rnum Rtrunc vee "b" 6 t /\ same_but_frame s t /\ x_local s = true /\ x_local t = false /\
  orthogonal (d_R ex_data) /\ isotropic (x_kp s) /\ isotropic (x_kd s) /\ (forall i, i < 6 -> on (x_mask s) i) /\
  @se3_step Rnum Rtrunc vee s (XCompute ex_data) = Ret s' tt /\ @se3_step Rnum Rtrunc vee t (XCompute ex_data) = Ret t' tt.
Proof.
  destruct (se3_config vee "a" 6 (v6 (fun _ => 10%R)) (v6 (fun _ => 3%R)) ex_val (v6 (unit_k 0)) (v6 (unit_k 5)) true) as (s & M & A & B & C & D & F1 & F2 & F3 & F4); auto.
  destruct (se3_config vee "b" 6 (v6 (fun _ => 10%R)) (v6 (fun _ => 3%R)) ex_val (v6 (unit_k 0)) (v6 (unit_k 5)) false) as (t & M' & A' & B' & C' & D' & F1' & F2' & F3' & F4'); auto.
  destruct (se3_runs vee "a" 6 s ex_data M A) as [s' E]. destruct (se3_runs vee "b" 6 t ex_data M' A') as [t' E']. exists s, t, s', t'.
  split; [exact M|]. split; [exact M'|]. split; [unfold same_but_frame; repeat split; congruence|]. split; [exact B|]. split; [exact B'|]. split; [exact Rz_orth|].
  rewrite C, D. split; [exists 10%R, 10%R; split; reflexivity|]. split; [exists 3%R, 3%R; split; reflexivity|]. split; [intros i _; rewrite A; reflexivity|]. auto.
Qed.

(** ** C62 reported errors *)
Theorem C62_se3 : forall log3 name nv (s : se3t Rnum) (d : fdata Rnum) s', reads9 log3 -> @se3_made Rnum Rtrunc log3 name nv s -> orthogonal (d_R d) ->
  @se3_step Rnum Rtrunc log3 s (XCompute d) = Ret s' tt -> forall j i, nth_error (ons 6 (x_mask s)) j = Some i ->
  (i < 3 -> vget (h_pe (x_h s')) j = (if x_local s then rot (tr (d_R d)) (vminus (x_pd s) (d_p d)) i else x_pd s i - d_p d i)%R /\
            vget (h_ve (x_h s')) j = (if x_local s then rot (tr (d_R d)) (x_vd s) i - d_v d i else x_vd s i - rot (d_R d) (d_v d) i)%R) /\
  (forall k, i = 3 + k -> vget (h_pe (x_h s')) j = (if x_local s then rot_error log3 (d_R d) (x_Rd s) k else rot (d_R d) (rot_error log3 (d_R d) (x_Rd s)) k)%R /\
            vget (h_ve (x_h s')) j = (if x_local s then rot (tr (d_R d)) (ang (x_vd s)) k - d_v d i else x_vd s i - rot (d_R d) (ang (d_v d)) k)%R) /\
  veq (x_v s') (mkVec 6 (d_v d)) /\ veq (x_vr s') (mkVec 6 (x_vd s)).
Proof. exact se3_errors. Qed.
Print Assumptions C62_se3.
(** position(), position_ref() hold the placements of the frame and of the reference. *)
Theorem C62_positions : forall (K : num) (toZ : K -> Z) log3 (s : se3t K) d s', se3_step toZ log3 s (XCompute d) = Ret s' tt ->
  holds (x_p s') (d_R d) (d_p d) /\ holds (x_pr s') (x_Rd s) (x_pd s) /\
  veq (x_v s') (mkVec 6 (d_v d)) /\ veq (x_vr s') (mkVec 6 (x_vd s)).
Proof. exact @se3_reports. Qed.
Print Assumptions C62_positions.
Theorem C62_am : forall name nv (s : amt Rnum) v d s', @am_made Rnum name nv s -> am_step s (OCompute v d) = Ret s' tt -> forall i, i < 3 ->
  o_L s' i = am_momentum nv (am_J d) (vget v) i /\
  o_err s' i = (am_momentum nv (am_J d) (vget v) i - vget (o_val s) i)%R /\
  o_des s' i = (o_kp s i * (vget (o_val s) i - am_momentum nv (am_J d) (vget v) i) + vget (o_der s) i)%R.
Proof. exact am_reports. Qed.
Print Assumptions C62_am.
(** The sign is the opposite one for the centre of mass. *)
Theorem C62_com : forall name nv (s : comt Rnum) (d : cdata Rnum) s', @com_made Rnum Rtrunc name nv s -> com_step Rtrunc s (ZCompute d) = Ret s' tt ->
  forall j i, nth_error (ons 3 (z_mask s)) j = Some i ->
    vget (h_pe (z_h s')) j = (g_p d i - vget (z_val s) i)%R /\ vget (h_ve (z_h s')) j = (g_v d i - vget (z_der s) i)%R.
Proof. exact com_errors. Qed.
Print Assumptions C62_com.
(** velocity_error() = velocity_ref() - velocity() holds for a frame aligned with the
    world and fails in both modes otherwise. *)
Theorem C62_aligned : forall log3 name nv (s : se3t Rnum) (d : fdata Rnum) s', reads9 log3 -> @se3_made Rnum Rtrunc log3 name nv s ->
  (forall a b, d_R d a b = if a =? b then 1%R else 0%R) -> @se3_step Rnum Rtrunc log3 s (XCompute d) = Ret s' tt ->
  forall j i, nth_error (ons 6 (x_mask s)) j = Some i -> vget (h_ve (x_h s')) j = (vget (x_vr s') i - vget (x_v s') i)%R.
Proof. exact velocity_error_aligned. Qed.
Print Assumptions C62_aligned.
Theorem C62_velocity_refuted : forall log3 name b, reads9 log3 -> exists (s s' : se3t Rnum) (d : fdata Rnum),
  se3_made Rtrunc log3 name 6 s /\ x_local s = b /\ orthogonal (d_R d) /\ x_mask s = ones_n 6 /\ @se3_step Rnum Rtrunc log3 s (XCompute d) = Ret s' tt /\
  vget (h_ve (x_h s')) 0 <> (vget (x_vr s') 0 - vget (x_v s') 0)%R.
Proof. exact velocity_error_refuted. Qed.
Print Assumptions C62_velocity_refuted.

(** ** C63 masks, sizes and failed calls *)
Theorem C63_se3_safe : forall log3 jk name nv, exists s0, se3_new Rtrunc jk name nv = Some s0 /\
  forall s, reach (@se3_step Rnum Rtrunc log3) xgood s0 s -> (vlen (x_mask s) = 6 /\ mask01 (x_mask s)) /\ forall o, xgood s o -> @se3_step Rnum Rtrunc log3 s o <> Undef.
Proof. exact se3_safe. Qed.
Print Assumptions C63_se3_safe.
Theorem C63_tf_safe : forall log3 jk name nv, exists s0, tf_new Rtrunc jk name nv = Some s0 /\
  forall s, reach (@tf_step Rnum Rtrunc log3) ygood s0 s -> (vlen (y_mask s) = 6 /\ mask01 (y_mask s)) /\ forall o, ygood s o -> exists s', @tf_step Rnum Rtrunc log3 s o = Ret s' tt.
Proof. exact tf_safe. Qed.
Print Assumptions C63_tf_safe.
Theorem C63_com_safe : forall jk name nv, exists s0, com_new Rtrunc jk name nv = Some s0 /\
  forall s, reach (@com_step Rnum Rtrunc) zgood s0 s -> (vlen (z_mask s) = 3 /\ mask01 (z_mask s)) /\ forall o, zgood s o -> @com_step Rnum Rtrunc s o <> Undef.
Proof. exact com_safe. Qed.
Print Assumptions C63_com_safe.
Theorem C63_am_safe : forall name nv s, reach am_step (ogood nv) (am_new name nv) s -> forall o, ogood nv s o -> am_step s o <> Undef.
Proof. exact am_safe. Qed.
Print Assumptions C63_am_safe.
(** For arbitrary masks, in every arithmetic: compute is defined exactly when the mask has
    an entry per component and its sum reserves a row per entry equal to 1. *)
Theorem C63_se3_defined : forall (K : num) (toZ : K -> Z) log3 name nv (s : se3t K) d, se3_made toZ log3 name nv s ->
  (exists s', se3_step toZ log3 s (XCompute d) = Ret s' tt) <-> 6 <= vlen (x_mask s) /\ length (ons 6 (x_mask s)) <= mdim toZ (x_mask s).
Proof. exact @se3_defined. Qed.
Print Assumptions C63_se3_defined.
Theorem C63_tf_defined : forall (K : num) (toZ : K -> Z) log3 name nv (s : tft K) d1 d2, tf_made toZ log3 name nv s ->
  (exists s', tf_step toZ log3 s (YCompute d1 d2) = Ret s' tt) <-> 6 <= vlen (y_mask s) /\ length (ons 6 (y_mask s)) <= mdim toZ (y_mask s).
Proof. exact @tf_defined. Qed.
Print Assumptions C63_tf_defined.
Theorem C63_com_defined : forall (K : num) (toZ : K -> Z) name nv (s : comt K) d, com_made toZ name nv s ->
  (exists s', com_step toZ s (ZCompute d) = Ret s' tt) <->
  vlen (z_val s) = 3 /\ vlen (z_der s) = 3 /\ vlen (z_sec s) = 3 /\ length (ons 3 (z_mask s)) <= mdim toZ (z_mask s).
Proof. exact @com_defined. Qed.
Print Assumptions C63_com_defined.
(** The SE3 task accepts a mask with three entries, after which compute reads out of
    bounds, and the mask (2,0,0,0,0,0), after which the task has two rows and
    constrains nothing. *)
Theorem C63_mask_refuted : forall log3 name nv, exists s, se3_made Rtrunc log3 name nv s /\
  (exists s1, @se3_step Rnum Rtrunc log3 s (XMask (vzero 0) (ones_n 3)) = Ret s1 tt /\ forall d, @se3_step Rnum Rtrunc log3 s1 (XCompute d) = Undef) /\
  (exists s1, @se3_step Rnum Rtrunc log3 s (XMask (vzero 0) (v6 (fun i => if i =? 0 then 2%R else 0%R))) = Ret s1 tt /\ mrows (c_mat (h_c (x_h s1))) = 2 /\
     forall d, exists s2, @se3_step Rnum Rtrunc log3 s1 (XCompute d) = Ret s2 tt /\ forall y, sat (h_c (x_h s2)) y).
Proof. exact se3_mask_refuted. Qed.
Print Assumptions C63_mask_refuted.
(** A call that throws changes nothing, except that getReference() of the SE3 task
    returns the rejected sample. *)
Theorem C63_exceptions : (forall log3 (s s' : tft Rnum) o, @tf_step Rnum Rtrunc log3 s o = Exc s' -> s' = s) /\
  (forall (s s' : comt Rnum) o, com_step Rtrunc s o = Exc s' -> s' = s) /\ (forall (s s' : amt Rnum) o, am_step s o = Exc s' -> s' = s).
Proof. exact others_exc. Qed.
Print Assumptions C63_exceptions.
Theorem C63_se3_exceptions : forall log3 (s s' : se3t Rnum) o, @se3_step Rnum Rtrunc log3 s o = Exc s' ->
  s' = s \/ exists val der sec, o = XRef val der sec /\ vlen val <> 12 /\
    s' = mkSe3t (x_nv s) (x_kp s) (x_kd s) (x_pd s) (x_Rd s) (x_vd s) (x_ad s) val der sec (x_local s) (x_mask s) (x_p s) (x_v s) (x_pr s) (x_vr s) (x_h s).
Proof. exact se3_exc. Qed.
Print Assumptions C63_se3_exceptions.
Example C63_case : forall (s : se3t Rnum) log3, exists s', @se3_step Rnum Rtrunc log3 s (XRef (ones_n 3) (ones_n 3) (ones_n 3)) = Exc s' /\ x_val s' = ones_n 3.
Proof. intros s log3. eexists. split; reflexivity. Qed.
Example C63_case2 : forall (s : comt Rnum), com_step Rtrunc s (ZKp (ones_n 2)) = Exc s.
Proof. reflexivity. Qed.
