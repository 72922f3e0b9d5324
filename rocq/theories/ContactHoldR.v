(** Closed loops of the contacts that exist. *)
From Coq Require Import String List Arith Bool ZArith Reals Lia Lra.
From Verif Require Import Scalar Outcome Linalg Constraint FormPhysSpec RSum Masks MaskReal FrameTasks FrameTasksP FrameTasksR FrameRefute.
From Verif Require Import ContactMotion ContactMotionP LinearLoop ClosedLoop ClosedLoopR RotLoop RotLoop2 OrientLoop OrientLoopR ContactHold ContactHoldP.
Import ListNotations.
Open Scope list_scope.
Open Scope nat_scope.

(** Accelerations that satisfy the law are accelerations of a closed loop. *)
Lemma point_loop log3 name nv l (d : R -> fdata Rnum) y : reads9 log3 ->
  (forall t, (0 <= t)%R -> orthogonal (d_R (d t)) /\ holds_point (told false l) (d t) (accel nv (d_J (d t)) (d_a (d t)) (y t))) -> point_runs log3 name nv (told false l) d y.
Proof.
  intros HL H t Ht. destruct (H t Ht) as [O L]. split; [exact O|]. set (jk := @mkVec Rnum 6 (fun _ => 0%R)).
  destruct (point_history log3 HL name nv jk jk l) as (s0 & s & E0 & E & _ & _ & G). destruct (G (d t)) as (s' & E' & _ & _ & M).
  exists jk, jk, l, s0, s, s'. repeat split; try assumption. apply M; [intros _; exact O|exact L].
Qed.
Lemma six_loop log3 name nv l (d : R -> fdata Rnum) y : reads9 log3 ->
  (forall t, (0 <= t)%R -> proper (d_R (d t)) /\ holds_frame log3 (told true l) (d t) (accel nv (d_J (d t)) (d_a (d t)) (y t))) -> six_runs log3 name nv (told true l) d y.
Proof.
  intros HL H t Ht. destruct (H t Ht) as [O L]. split; [exact O|]. set (jk := @mkVec Rnum 6 (fun _ => 0%R)).
  destruct (six_history log3 HL name nv jk l) as (s0 & s & E0 & E & _ & _ & G). destruct (G (d t)) as (s' & E' & _ & _ & M).
  exists jk, l, s0, s, s'. repeat split; try assumption. apply M; exact L.
Qed.
Lemma two_loop log3 name nv l (d1 d2 : R -> fdata Rnum) y : reads9 log3 -> Forall three_gains l ->
  (forall t, (0 <= t)%R -> orthogonal (d_R (d1 t)) /\ holds_together (told2 l) (d1 t) (d2 t) (accel nv (d_J (d1 t)) (d_a (d1 t)) (y t)) (accel nv (d_J (d2 t)) (d_a (d2 t)) (y t))) ->
  two_runs log3 name nv (told2 l) d1 d2 y.
Proof.
  intros HL TG H t Ht. destruct (H t Ht) as [O L]. split; [exact O|]. set (jk := @mkVec Rnum 6 (fun _ => 0%R)).
  destruct (two_history log3 HL name nv jk jk l TG) as (s0 & s & E0 & E & _ & _ & G). destruct (G (d1 t) (d2 t)) as (s' & E' & _ & _ & M).
  exists jk, jk, l, s0, s, s'. repeat split; try assumption. apply M; [exact O|exact L].
Qed.

(** Calls of the user: gains, placement at the world origin, axes. *)
Definition set_up (n : nat) (kp kd : rvec) (b : bool) : list (mop Rnum) :=
  [MKp (@mkVec Rnum 6 (fun _ => 0%R)) (@mkVec Rnum n kp); MKd (@mkVec Rnum 6 (fun _ => 0%R)) (@mkVec Rnum n kd); @MRef Rnum id6 (fun _ => 0%R); @MLocal Rnum b].
Definition set_up2 (kp kd : rvec) : list (twop Rnum) :=
  [WKp (@mkVec Rnum 6 (fun _ => 0%R)) (@mkVec Rnum 3 kp); WKd (@mkVec Rnum 6 (fun _ => 0%R)) (@mkVec Rnum 3 kd)].
Lemma told_point kp kd b : told false (set_up 3 kp kd b) = mkWish kp kd id6 (fun _ => 0%R) b.
Proof. reflexivity. Qed.
Lemma told_six kp kd b : told true (set_up 6 kp kd b) = mkWish kp kd id6 (fun _ => 0%R) true.
Proof. reflexivity. Qed.

(** ** The data of OrientLoopR.v and ClosedLoopR.v *)
Lemma fd_accel t i : i < 6 -> accel 6 (d_J (fd t)) (d_a (fd t)) (fy t) i = fy t i.
Proof. intros Hi. cbn [fd d_J d_a]. rewrite accel_id6 by exact Hi. ring. Qed.
Lemma fy_low t i : i < 3 -> fy t i = g t.
Proof. intros Hi. unfold fy. apply Nat.ltb_lt in Hi. rewrite Hi. reflexivity. Qed.
Lemma fd_v t i : i < 3 -> d_v (fd t) i = (- g t)%R.
Proof. intros Hi. cbn [fd d_v]. apply Nat.ltb_lt in Hi. rewrite Hi. reflexivity. Qed.
Lemma fd_moves : frame_moves 6 fd fy.
Proof.
  intros i Hi. apply twice_ext with (4 := g_twice); intros t; [reflexivity| |].
  - unfold world_v. change (d_R (fd t)) with (id6 : rmat). rewrite (proj1 (id6_rot _ i Hi)). symmetry. apply fd_v, Hi.
  - change (d_R (fd t)) with (id6 : rmat). rewrite (proj1 (id6_rot _ i Hi)), fd_accel by lia. symmetry. apply fy_low, Hi.
Qed.
Lemma sd_lin t i : i < 3 -> d_v (sd t) i = 0%R /\ accel 6 (d_J (sd t)) (d_a (sd t)) (sy t) i = 0%R.
Proof. intros Hi. split; [three i; reflexivity|]. rewrite sd_accel by lia. three i; reflexivity. Qed.
Lemma sd_moves : frame_moves 6 sd sy.
Proof.
  intros i Hi. apply twice_ext with (4 := zero_twice); intros t; [reflexivity| |]; symmetry; unfold world_v; apply rot_zero; intros k Hk; apply (sd_lin t k Hk).
Qed.
Lemma zero_moves nv y : frame_moves nv (fun _ => zero_data) y.
Proof.
  intros i Hi. apply twice_ext with (4 := zero_twice); intros t; [reflexivity| |]; symmetry; unfold world_v; apply rot_zero; intros k Hk; [reflexivity|].
  unfold accel. cbn [zero_data d_J d_a]. rewrite rsum_zero; [ring|]. intros c _. change (@n0 Rnum) with 0%R. ring.
Qed.
Lemma rz (Q : rmat) (x y : rvec) i : (forall k, k < 3 -> x k = y k) -> rot Q (vminus x y) i = 0%R.
Proof. intros H. apply rot_zero. intros k Hk. unfold vminus. rewrite (H k Hk). ring. Qed.

(** ** Loops *)
(** Point contact under a frame that turns, any gains. *)
Theorem turning_point log3 kp kd b : reads9 log3 ->
  point_runs log3 "point" 6 (mkWish kp kd id6 (fun _ => 0%R) b) sd sy /\ frame_moves 6 sd sy /\ (forall i, i < 3 -> d_p (sd 0%R) i = 0%R /\ d_v (sd 0%R) i = 0%R) /\
  (forall t, (0 <= t)%R -> d_v (sd t) 5 <> 0%R).
Proof.
  intros HL. split; [|split; [exact sd_moves|split]].
  - rewrite <- told_point. apply (point_loop log3 "point" 6 (set_up 3 kp kd b) sd sy HL). intros t Ht. split; [apply zrot_proper|]. rewrite told_point. unfold holds_point. cbn [u_local u_kp u_kd u_p]. destruct b; intros i Hi.
    + rewrite (proj2 (sd_lin t i Hi)), (proj1 (sd_lin t i Hi)), rz by reflexivity. ring.
    + rewrite !rot_zero by (intros k Hk; apply (sd_lin t k Hk)). change (d_p (sd t) i) with 0%R. ring.
  - intros i Hi. split; [reflexivity|apply (sd_lin 0%R i Hi)].
  - intros t Ht. change (d_v (sd t) 5) with (- g t)%R. assert (G := g_range t Ht). lra.
Qed.
(** A point contact one metre off, on all axes, gains 1 and 2. *)
Theorem returning_point log3 b : reads9 log3 ->
  point_runs log3 "point" 6 (mkWish (fun _ => 1%R) (fun _ => 2%R) id6 (fun _ => 0%R) b) fd fy /\ frame_moves 6 fd fy /\ (forall i, i < 3 -> d_p (fd 0%R) i = 1%R).
Proof.
  intros HL. split; [|split; [exact fd_moves|]].
  - rewrite <- told_point. apply (point_loop log3 "point" 6 (set_up 3 (fun _ => 1%R) (fun _ => 2%R) b) fd fy HL). intros t Ht. split; [apply id6_orth|]. rewrite told_point. unfold holds_point. cbn [u_local u_kp u_kd u_p]. change (d_R (fd t)) with (id6 : rmat). destruct b; intros i Hi.
    + rewrite fd_accel, fy_low, fd_v, (proj2 (id6_rot _ i Hi)) by lia. unfold vminus. change (d_p (fd t) i) with (g t). ring.
    + rewrite !(proj1 (id6_rot _ i Hi)), fd_accel, fy_low, fd_v by lia. change (d_p (fd t) i) with (g t). ring.
  - intros i Hi. change (g 0 = 1%R). unfold g. rewrite Rmult_0_r. apply exp_0.
Qed.
(** A 6d contact at rest while another joint moves, any gains. *)
Definition rest7 : fdata Rnum := @mkFd Rnum id6 (fun _ => 0%R) (fun _ => 0%R) (fun _ => 0%R) id6.
Definition free7 (t : R) : rvec := fun i => if i =? 6 then t else 0%R.
Lemma rest_accel t i : i < 6 -> accel 7 (d_J rest7) (d_a rest7) (free7 t) i = 0%R.
Proof. intros Hi. cbn [rest7 d_J d_a]. rewrite accel_id6 by lia. unfold free7. replace (i =? 6) with false by (symmetry; apply Nat.eqb_neq; lia). ring. Qed.
Lemma same_error log3 : principal log3 -> forall i, i < 3 -> rot_error log3 id6 id6 i = 0%R.
Proof.
  intros HP i Hi. assert (A := same_apart (fun _ => id6) (fun _ => id6) 0%R id6_proper (fun _ _ _ _ => eq_refl)). unfold apart in A.
  assert (P : proper (tr_mul id6 id6)) by (apply error_proper; apply id6_proper).
  assert (Q := HP _ P). change (turn_of (tr_mul id6 id6) = 0%R) in A. rewrite A in Q. apply (Q PI_RGT_0 i Hi). reflexivity.
Qed.
Theorem resting_six log3 kp kd : reads9 log3 -> principal log3 ->
  six_runs log3 "six" 7 (mkWish kp kd id6 (fun _ => 0%R) true) (fun _ => rest7) free7 /\ frame_moves 7 (fun _ => rest7) free7 /\ frame_spins 7 (fun _ => rest7) free7.
Proof.
  intros HL HP. split; [|split].
  - rewrite <- (told_six kp kd true). apply (six_loop log3 "six" 7 (set_up 6 kp kd true) (fun _ => rest7) free7 HL). intros t Ht. split; [apply id6_proper|]. rewrite told_six. unfold holds_frame. cbn [u_kp u_kd u_p u_R]. split; intros i Hi.
    + rewrite rest_accel, rz by (lia || reflexivity). change (d_v rest7 i) with 0%R. ring.
    + unfold ang at 1. rewrite rest_accel by lia. change (d_R rest7) with (id6 : rmat). rewrite same_error by assumption. change (ang (d_v rest7) i) with 0%R. ring.
  - intros i Hi. apply twice_ext with (4 := zero_twice); intros t; [reflexivity| |]; symmetry; unfold world_v; apply rot_zero; intros k Hk; [reflexivity|apply rest_accel; lia].
  - apply spins_ext with (4 := still_spins); [reflexivity| |]; intros t i Hi; apply rot_zero; intros k Hk; [reflexivity|unfold ang; apply rest_accel; lia].
Qed.
(** A 6d contact one radian off, gains 1 and 2. *)
Theorem returning_six log3 : reads9 log3 -> principal log3 ->
  six_runs log3 "six" 6 (mkWish (fun _ => 1%R) (fun _ => 2%R) id6 (fun _ => 0%R) true) sd sy /\ frame_moves 6 sd sy /\ frame_spins 6 sd sy /\
  (let A := fun t => d_R (sd t) in let B := fun _ : R => id6 : rmat in apart A B 0 = 1 /\
   1 * (apart A B 0 * apart A B 0) + speed2 (fun t => world_w (sd t)) (fun _ _ => 0) 0 <= 1 * (3 / 2 * (3 / 2)) /\ 3 / 2 < PI)%R.
Proof.
  intros HL HP. split; [|split; [exact sd_moves|split; [exact sd_spins|]]].
  - rewrite <- (told_six _ _ true). apply (six_loop log3 "six" 6 (set_up 6 (fun _ => 1%R) (fun _ => 2%R) true) sd sy HL). intros t Ht. split; [apply zrot_proper|]. rewrite told_six. unfold holds_frame. cbn [u_kp u_kd u_p u_R]. split; intros i Hi.
    + rewrite (proj2 (sd_lin t i Hi)), (proj1 (sd_lin t i Hi)), rz by reflexivity. ring.
    + destruct (back_error log3 id6 (g t) HP) as (E0 & E1 & E2); [reflexivity|exact id6_proper|assert (G := g_range t Ht); assert (G' := g_pi t Ht); lra|].
      unfold ang at 1. rewrite sd_accel by lia. change (d_R (sd t)) with (zrot (g t)). unfold ang, sy. three i; [rewrite E0|rewrite E1|rewrite E2]; cbn; ring.
  - assert (X : apart (fun t => d_R (sd t)) (fun _ => id6) 0 = 1%R).
    { unfold apart. change (turn_of (tr_mul (zrot (g 0)) id6) = 1%R). rewrite back_turn; [unfold g; rewrite Rmult_0_r; apply exp_0|reflexivity|]. assert (G := g_range 0 (Rle_refl 0)). assert (G' := g_pi 0 (Rle_refl 0)). lra. }
    cbv zeta. split; [exact X|]. rewrite X. split; [|assert (P := PI2_3_2); lra]. unfold speed2, dot3, world_w. change (d_R (sd 0)) with (zrot (g 0)).
    rewrite !(zrot_z (g 0) (ang (d_v (sd 0))) eq_refl eq_refl) by lia. unfold ang. cbn. unfold g. rewrite Rmult_0_r, exp_0. lra.
Qed.
(** Two frames that move together, any gains; and two frames one metre apart. *)
Theorem moving_two log3 kp kd : reads9 log3 ->
  two_runs log3 "two" 6 (kp, kd) fd fd fy /\ frame_moves 6 fd fy /\ (forall i, i < 3 -> world_v (fd 0%R) i = (-1)%R).
Proof.
  intros HL. split; [|split; [exact fd_moves|]].
  - apply (two_loop log3 "two" 6 (set_up2 kp kd) fd fd fy HL); [repeat constructor|]. intros t Ht. split; [apply id6_orth|]. intros i Hi. ring.
  - intros i Hi. unfold world_v. change (d_R (fd 0)) with (id6 : rmat). rewrite (proj1 (id6_rot _ i Hi)), fd_v by exact Hi. unfold g. rewrite Rmult_0_r, exp_0. reflexivity.
Qed.
Theorem returning_two log3 : reads9 log3 ->
  two_runs log3 "two" 6 (fun _ => 1%R, fun _ => 2%R) fd (fun _ => zero_data) fy /\ frame_moves 6 fd fy /\ frame_moves 6 (fun _ => zero_data) fy /\ (forall i, i < 3 -> (d_p (fd 0%R) i - d_p zero_data i = 1)%R).
Proof.
  intros HL. split; [|split; [exact fd_moves|split; [apply zero_moves|]]].
  - apply (two_loop log3 "two" 6 (set_up2 (fun _ => 1%R) (fun _ => 2%R)) fd (fun _ => zero_data) fy HL); [repeat constructor|]. intros t Ht. split; [apply id6_orth|]. intros i Hi.
    change (d_R (fd t)) with (id6 : rmat). change (d_R zero_data) with (id6 : rmat). rewrite !(proj1 (id6_rot _ i Hi)), fd_accel, fy_low, fd_v by lia.
    change (d_p (fd t) i) with (g t). change (d_p zero_data i) with 0%R. change (d_v zero_data i) with 0%R.
    assert (Z : accel 6 (d_J zero_data) (d_a zero_data) (fy t) i = 0%R).
    { unfold accel. cbn [zero_data d_J d_a]. rewrite rsum_zero; [ring|]. intros c _. change (@n0 Rnum) with 0%R. ring. }
    rewrite Z. cbn. ring.
  - intros i Hi. change (d_p (fd 0%R) i) with (g 0). change (d_p zero_data i) with 0%R. unfold g. rewrite Rmult_0_r, exp_0. ring.
Qed.
(** A point contact as constructed, sliding at one metre per second. *)
Definition slide (t : R) : fdata Rnum := @mkFd Rnum id6 (fun _ => t) (fun i => if i <? 3 then 1%R else 0%R) (fun _ => 0%R) id6.
Theorem sliding_point log3 : reads9 log3 -> point_runs log3 "point" 6 no_wish slide (fun _ _ => 0%R) /\ frame_moves 6 slide (fun _ _ => 0%R) /\ even_gains no_wish 0 0 /\
  (forall i, i < 3 -> world_v (slide 0%R) i = 1%R).
Proof.
  intros HL. assert (A : forall t i, i < 6 -> accel 6 (d_J (slide t)) (d_a (slide t)) (fun _ => 0%R) i = 0%R) by (intros t i Hi; cbn [slide d_J d_a]; rewrite accel_id6 by exact Hi; ring).
  assert (V : forall t i, i < 3 -> world_v (slide t) i = 1%R).
  { intros t i Hi. unfold world_v. change (d_R (slide t)) with (id6 : rmat). rewrite (proj1 (id6_rot _ i Hi)). cbn [slide d_v]. apply Nat.ltb_lt in Hi. rewrite Hi. reflexivity. }
  split; [|split; [|split]].
  - apply (point_loop log3 "point" 6 [] slide _ HL). intros t Ht. split; [apply id6_orth|]. intros i Hi. rewrite A by lia. cbn [told fold_left no_wish u_kp u_kd]. ring.
  - intros i Hi t Ht. split.
    + rewrite V by exact Hi. apply derivable_pt_lim_id.
    + rewrite rot_zero by (intros k Hk; apply A; lia). apply (deriv_ext (fun _ => 1%R)); [intros u; symmetry; apply V, Hi|apply deriv_const].
  - intros i Hi. split; reflexivity.
  - apply V.
Qed.
