(** Closed loops that exist: frames turning about the vertical axis with angle exp(-t) to their
    reference, for gains kp = 1 and kd = 2; and a logarithm that is principal. *)
From Coq Require Import String List Arith Bool ZArith Reals Lia Lra.
From Verif Require Import Scalar Outcome Linalg Constraint FormPhysSpec RSum Masks MaskReal JointTask FrameTasks FrameTasksP FrameTasksR FrameSetters FrameRefute
  LinearLoop ClosedLoop ClosedLoopR RotLoop RotLoop2 OrientLoop.
Import ListNotations.
Open Scope nat_scope.

(** * A principal logarithm *)
Definition plain_log (E : rmat) : rvec := fun i => if Req_EM_T (sin (turn_of E)) 0 then 0%R else (turn_of E / sin (turn_of E) * vee3 E i)%R.
Lemma plain_reads9 : reads9 plain_log.
Proof.
  intros A B H i Hi.
  assert (T : turn_of A = turn_of B) by (unfold turn_of, trace3; rewrite !H by lia; reflexivity).
  assert (V : vee3 A i = vee3 B i) by (three i; unfold vee3; rewrite !H by lia; reflexivity).
  unfold plain_log. rewrite T, V. reflexivity.
Qed.
Lemma plain_principal : principal plain_log.
Proof.
  intros E _ L i Hi. unfold plain_log. assert (B := acos_bound ((trace3 E - 1) / 2)). fold (turn_of E) in B.
  destruct (Req_EM_T (sin (turn_of E)) 0) as [Z|N].
  - assert (T : turn_of E = 0%R).
    { destruct (Req_dec (turn_of E) 0) as [|Hne]; [assumption|]. assert (0 < sin (turn_of E))%R by (apply sin_gt_0; lra). lra. }
    rewrite T. split; [reflexivity|ring].
  - split; [intros T; rewrite T, sin_0 in N; contradiction|]. field. exact N.
Qed.

(** * A turn about the vertical axis *)
Definition zrot (a : R) : rmat := fun i j =>
  match i, j with
  | 0, 0 => cos a | 0, 1 => (- sin a)%R | 0, _ => 0%R
  | 1, 0 => sin a | 1, 1 => cos a | 1, _ => 0%R
  | _, 2 => 1%R | _, _ => 0%R
  end.
Lemma cs a : (cos a * cos a + sin a * sin a = 1)%R.
Proof. assert (X := sin2_cos2 a). unfold Rsqr in X. lra. Qed.
Lemma zrot_proper a : proper (zrot a).
Proof.
  apply rotation_proper. assert (C := cs a). unfold rotation3, rows3, det3, dot3, cross3, zrot. repeat split; lra.
Qed.
Lemma id6_proper : proper id6.
Proof. split; [apply id6_orth|]. unfold det3, dot3, cross3, id6. cbn. ring. Qed.
Lemma zrot_z a (x : rvec) : (x 0%nat = 0 -> x 1%nat = 0 -> forall i, (i < 3)%nat -> rot (zrot a) x i = x i)%R.
Proof. intros X Y i Hi. three i; unfold rot, zrot; rewrite X, Y; ring. Qed.
Lemma zrot_tz a (x : rvec) : (x 0%nat = 0 -> x 1%nat = 0 -> forall i, (i < 3)%nat -> rot (tr (zrot a)) x i = x i)%R.
Proof. intros X Y i Hi. three i; unfold rot, tr, zrot; rewrite X, Y; ring. Qed.
Lemma zrot_zero a : forall i, i < 3 -> rot (zrot a) (fun _ => 0%R) i = 0%R /\ rot (tr (zrot a)) (fun _ => 0%R) i = 0%R.
Proof. intros i Hi. unfold rot, tr. split; ring. Qed.
Lemma g_range t : (0 <= t -> 0 < g t <= 1)%R.
Proof.
  intros Ht. unfold g. split; [apply exp_pos|]. destruct (Req_dec t 0) as [->|]; [rewrite Rmult_0_r, exp_0; lra|].
  left. rewrite <- exp_0. apply exp_increasing. lra.
Qed.
Lemma g_pi t : (0 <= t -> g t < PI)%R.
Proof. intros Ht. assert (G := g_range t Ht). assert (P := PI2_3_2). lra. Qed.
(** Rotation from the turned frame back to the world. *)
Lemma back_turn (R0 : rmat) a : (forall i j, i < 3 -> j < 3 -> R0 i j = id6 i j) -> (0 <= a < PI)%R -> turn_of (tr_mul (zrot a) R0) = a.
Proof.
  intros H Ha. unfold turn_of. replace ((trace3 (tr_mul (zrot a) R0) - 1) / 2)%R with (cos a); [apply acos_cos; lra|].
  unfold trace3, tr_mul, dot3. rewrite !H by lia. unfold id6, zrot. cbn. field.
Qed.
Lemma back_error log3 (R0 : rmat) a : principal log3 -> (forall i j, i < 3 -> j < 3 -> R0 i j = id6 i j) -> proper R0 -> (0 < a < PI)%R ->
  rot_error log3 (zrot a) R0 0 = 0%R /\ rot_error log3 (zrot a) R0 1 = 0%R /\ rot_error log3 (zrot a) R0 2 = (- a)%R.
Proof.
  intros HP H PR Ha. unfold rot_error. change (fun a0 b => rot (tr (zrot a)) (fun k => R0 k b) a0) with (tr_mul (zrot a) R0).
  assert (T := back_turn R0 a H ltac:(lra)).
  assert (P := HP (tr_mul (zrot a) R0) (error_proper _ _ (zrot_proper a) PR)). rewrite T in P. specialize (P (proj2 Ha)).
  assert (S : (0 < sin a)%R) by (apply sin_gt_0; lra).
  assert (V0 : vee3 (tr_mul (zrot a) R0) 0 = 0%R) by (unfold vee3, tr_mul, dot3; rewrite !H by lia; unfold id6, zrot; cbn; field).
  assert (V1 : vee3 (tr_mul (zrot a) R0) 1 = 0%R) by (unfold vee3, tr_mul, dot3; rewrite !H by lia; unfold id6, zrot; cbn; field).
  assert (V2 : vee3 (tr_mul (zrot a) R0) 2 = (- sin a)%R) by (unfold vee3, tr_mul, dot3; rewrite !H by lia; unfold id6, zrot; cbn; field).
  destruct (P 0 ltac:(lia)) as [_ P0]. destruct (P 1 ltac:(lia)) as [_ P1]. destruct (P 2 ltac:(lia)) as [_ P2]. rewrite V0 in P0. rewrite V1 in P1. rewrite V2 in P2.
  repeat split; (apply Rmult_eq_reg_l with (r := sin a); [|lra]); lra.
Qed.
Lemma zrot_spins : spins (fun t => zrot (g t)) (fun t i => match i with 2 => (- g t)%R | _ => 0%R end) (fun t i => match i with 2 => g t | _ => 0%R end).
Proof.
  assert (DC : forall t, (0 <= t)%R -> derivable_pt_lim (fun u => cos (g u)) t (g t * sin (g t))%R).
  { intros t Ht. eapply deriv_val; [apply (derivable_pt_lim_comp g cos); [apply (g_twice t Ht)|apply derivable_pt_lim_cos]|]. ring. }
  assert (DS : forall t, (0 <= t)%R -> derivable_pt_lim (fun u => sin (g u)) t (- (g t * cos (g t)))%R).
  { intros t Ht. eapply deriv_val; [apply (derivable_pt_lim_comp g sin); [apply (g_twice t Ht)|apply derivable_pt_lim_sin]|]. ring. }
  split.
  - intros t Ht i j Hi Hj. three i; three j; unfold zrot, cross3; try (eapply deriv_val; [apply deriv_const|ring]);
      try (eapply deriv_val; [apply (DC t Ht)|ring]); try (eapply deriv_val; [apply (DS t Ht)|ring]).
    eapply deriv_val; [apply (deriv_ext (fun u => -1 * sin (g u))%R); [intros u; ring|apply (deriv_mult (fun _ => (-1)%R)); [apply deriv_const|apply (DS t Ht)]]|ring].
  - intros t Ht i Hi. three i; [apply deriv_const|apply deriv_const|]. apply (g_twice t Ht).
Qed.
Lemma spins_ext A w w1 A' w' w1' : (forall t i j, i < 3 -> j < 3 -> A' t i j = A t i j) -> (forall t i, i < 3 -> w' t i = w t i) -> (forall t i, i < 3 -> w1' t i = w1 t i) ->
  spins A w w1 -> spins A' w' w1'.
Proof.
  intros H1 H2 H3 [S1 S2]. split.
  - intros t Ht i j Hi Hj. eapply deriv_val; [apply (deriv_ext (fun u => A u i j)); [intros u; symmetry; apply H1; assumption|apply S1; assumption]|].
    three i; unfold cross3; rewrite !H1, !H2 by lia; reflexivity.
  - intros t Ht i Hi. rewrite H3 by exact Hi. apply (deriv_ext (fun u => w u i)); [intros u; symmetry; apply H2; exact Hi|apply S2; assumption].
Qed.
Lemma still_spins : spins (fun _ => id6) (fun _ _ => 0%R) (fun _ _ => 0%R).
Proof. split; [intros t Ht i j Hi Hj; eapply deriv_val; [apply deriv_const|three i; unfold cross3; ring]|intros t Ht i Hi; apply deriv_const]. Qed.

(** * Loops *)
Definition sd (t : R) : fdata Rnum := @mkFd Rnum (zrot (g t)) (fun _ => 0%R) (fun i => if i =? 5 then (- g t)%R else 0%R) (fun _ => 0%R) id6.
Definition sy (t : R) : rvec := fun i => if i =? 5 then g t else 0%R.
Lemma sd_accel t i : i < 6 -> accel 6 (d_J (sd t)) (d_a (sd t)) (sy t) i = sy t i.
Proof. intros Hi. cbn [sd d_J d_a]. rewrite accel_id6 by exact Hi. ring. Qed.
Lemma sd_spins : frame_spins 6 sd sy.
Proof.
  apply spins_ext with (4 := zrot_spins).
  - reflexivity.
  - intros t i Hi. cbn [sd d_R d_v]. rewrite zrot_z by (reflexivity || exact Hi). three i; reflexivity.
  - intros t i Hi. change (d_R (sd t)) with (zrot (g t)). rewrite zrot_z; [|unfold ang; rewrite sd_accel by lia; reflexivity..|exact Hi]. unfold ang. rewrite sd_accel by lia. three i; reflexivity.
Qed.
Theorem orient_loop log3 b : reads9 log3 -> principal log3 -> exists (s s' : R -> se3t Rnum) (d : R -> fdata Rnum) (y : R -> nat -> R),
    frame_runs log3 1 2 "frame" 6 s s' d y /\ (forall t, x_local (s t) = b) /\ frame_spins 6 d y /\ reference_spins s /\
    (forall t, (0 <= t)%R -> dot3 (ang (x_vd (s t))) (ang (x_vd (s t))) = 0%R) /\
    (let A := fun t => d_R (d t) in let B := fun t => x_Rd (s t) in
     (forall t, 0 <= t -> apart A B t = exp (- 1 * t)) /\
     1 * (apart A B 0 * apart A B 0) + speed2 (fun t => rot (d_R (d t)) (ang (d_v (d t)))) (fun t => ang (x_vd (s t))) 0 <= 1 * (3 / 2 * (3 / 2)) /\ 3 / 2 < PI)%R.
Proof.
  intros HL HP. destruct (se3_config log3 "frame" 6 (v6 (fun _ => 1%R)) (v6 (fun _ => 2%R)) at_origin (v6 (fun _ => 0%R)) (v6 (fun _ => 0%R)) b) as (s & M & MS & B & KP & KD & PD & RD & VD & AD); auto.
  assert (RUN : forall t, exists s', @se3_step Rnum Rtrunc log3 s (XCompute (sd t)) = Ret s' tt) by (intros t; exact (se3_runs log3 "frame" 6 s (sd t) M MS)).
  exists (fun _ => s), (fun t => match @se3_step Rnum Rtrunc log3 s (XCompute (sd t)) with Ret s' _ => s' | _ => s end), sd, sy.
  assert (PZ : forall i, i < 3 -> x_pd s i = 0%R) by (intros i Hi; rewrite PD; three i; reflexivity).
  assert (RI : forall i j, i < 3 -> j < 3 -> x_Rd s i j = id6 i j) by (intros i j Hi Hj; rewrite RD; three i; three j; reflexivity).
  assert (RP : proper (x_Rd s)).
  { destruct id6_proper as [O D]. split.
    - intros x i Hi. destruct (O x i Hi) as [X Y]. unfold rot, tr in *. rewrite !RI by lia. split; assumption.
    - unfold det3, dot3, cross3 in *. rewrite !RI by lia. exact D. }
  assert (RE : forall t, (0 <= t)%R -> rot_error log3 (zrot (g t)) (x_Rd s) 0 = 0%R /\ rot_error log3 (zrot (g t)) (x_Rd s) 1 = 0%R /\ rot_error log3 (zrot (g t)) (x_Rd s) 2 = (- g t)%R).
  { intros t Ht. apply back_error; [exact HP|exact RI|exact RP|]. assert (G := g_range t Ht). assert (G' := g_pi t Ht). lra. }
  split; [|split; [intros t; exact B|split; [exact sd_spins|split; [|split; [|split; [|split]]]]]].
  - intros t Ht. split; [exact M|]. split; [apply zrot_proper|]. split; [exact RP|]. split; [intros i Hi; rewrite MS, KP, KD; repeat split|].
    destruct (RUN t) as (s' & ER). rewrite ER. split; [reflexivity|]. destruct (RE t Ht) as (E0 & E1 & E2). destruct b.
    + apply (se3_meaning_local log3 HL _ _ _ _ _ M B ER). cbv zeta. split.
      * intros k Hk _. rewrite sd_accel by lia. unfold local_lin. rewrite KP, KD, VD, AD. cbn [sd d_R d_p d_v v6 vget].
        rewrite (rot_ext _ (vminus (x_pd s) (fun _ => 0%R)) (fun _ => 0%R)) by (intros i Hi; unfold vminus; rewrite PZ by exact Hi; ring).
        rewrite !(proj2 (zrot_zero (g t) k Hk)). unfold sy. three k; cbn; ring.
      * intros k Hk _. unfold ang at 1. rewrite sd_accel by lia. unfold local_ang. rewrite KP, KD, VD, AD. cbn [sd d_R d_p d_v v6 vget]. change (ang (fun _ => 0%R)) with (fun _ : nat => 0%R).
        rewrite !(proj2 (zrot_zero (g t) k Hk)). unfold sy. three k; [rewrite E0|rewrite E1|rewrite E2]; cbn; ring.
    + apply (se3_meaning_world log3 HL _ _ _ (sd t) _ M B (proj1 (zrot_proper (g t))) ER). cbv zeta. change (d_R (sd t)) with (zrot (g t)). split.
      * intros k Hk _. rewrite (rot_ext _ (accel 6 (d_J (sd t)) (d_a (sd t)) (sy t)) (fun _ => 0%R)) by (intros i Hi; rewrite sd_accel by lia; three i; reflexivity).
        unfold world_lin. rewrite KP, KD, VD, AD, PZ by exact Hk. cbn [sd d_R d_p d_v v6 vget].
        rewrite (rot_ext _ (fun i => if i =? 5 then (- g t)%R else 0%R) (fun _ => 0%R)) by (intros i Hi; three i; reflexivity). rewrite !(proj1 (zrot_zero (g t) k Hk)). ring.
      * intros k Hk _. rewrite zrot_z; [|unfold ang; rewrite sd_accel by lia; reflexivity..|exact Hk]. unfold ang at 1. rewrite sd_accel by lia.
        unfold world_ang. rewrite KP, KD, VD, AD. change (d_R (sd t)) with (zrot (g t)). rewrite (zrot_z (g t) (rot_error log3 (zrot (g t)) (x_Rd s)) E0 E1 k Hk).
        rewrite (zrot_z (g t) (ang (d_v (sd t))) eq_refl eq_refl k Hk). unfold sy. three k; [rewrite E0|rewrite E1|rewrite E2]; cbn; ring.
  - apply spins_ext with (4 := still_spins).
    + intros t i j Hi Hj. apply RI; assumption.
    + intros t i Hi. rewrite VD. reflexivity.
    + intros t i Hi. rewrite AD. reflexivity.
  - intros t _. rewrite VD. unfold ang, dot3. cbn. ring.
  - intros t Ht. change (turn_of (tr_mul (zrot (g t)) (x_Rd s)) = g t). apply back_turn; [exact RI|]. assert (G := g_range t Ht). assert (G' := g_pi t Ht). lra.
  - assert (X : apart (fun t => d_R (sd t)) (fun _ => x_Rd s) 0 = 1%R).
    { unfold apart. change (turn_of (tr_mul (zrot (g 0)) (x_Rd s)) = 1%R). rewrite back_turn; [unfold g; rewrite Rmult_0_r; apply exp_0|exact RI|]. assert (G := g_range 0 (Rle_refl 0)). assert (G' := g_pi 0 (Rle_refl 0)). lra. }
    rewrite X. unfold speed2, dot3. rewrite VD. change (d_R (sd 0)) with (zrot (g 0)).
    rewrite !(zrot_z (g 0) (ang (d_v (sd 0))) eq_refl eq_refl) by lia. unfold ang. cbn. unfold g. rewrite Rmult_0_r, exp_0. lra.
  - assert (P := PI2_3_2). lra.
Qed.

(** Two frames, the second at rest. *)
Definition zero_data : fdata Rnum := @mkFd Rnum id6 (fun _ => 0%R) (fun _ => 0%R) (fun _ => 0%R) (fun _ _ => 0%R).
Lemma tf_config log3 name nv (kp kd : vec Rnum) : vlen kp = 6 -> vlen kd = 6 -> exists s, @tf_made Rnum Rtrunc log3 name nv s /\ y_mask s = ones_n 6 /\ y_kp s = kp /\ y_kd s = kd.
Proof.
  intros H1 H2. destruct (tf_start log3 name nv) as (s0 & M0 & A0).
  destruct (tf_setters Rtrunc log3 s0) as (K & _). destruct (K kp H1) as (s1 & E1 & C1 & _).
  destruct (tf_setters Rtrunc log3 s1) as (_ & K' & _). destruct (K' kd H2) as (s2 & E2 & C2 & _).
  unfold tf_conf in *. injection C1 as X1 X2 X3. injection C2 as Y1 Y2 Y3. exists s2. split; [|split; [congruence|split; congruence]].
  destruct M0 as (jk & s00 & EE & RR). exists jk, s00. split; [exact EE|].
  eapply reach_step; [eapply reach_step; [exact RR|exact Logic.I|rewrite E1; reflexivity]|exact Logic.I|rewrite E2; reflexivity].
Qed.
Theorem pair_loop log3 : reads9 log3 -> principal log3 -> exists (s s' : R -> tft Rnum) (d1 d2 : R -> fdata Rnum) (y : R -> nat -> R),
    pair_runs log3 1 2 "frames" 6 s s' d1 d2 y /\ frame_spins 6 d1 y /\ frame_spins 6 d2 y /\
    (forall t, (0 <= t)%R -> dot3 (rot (d_R (d2 t)) (ang (d_v (d2 t)))) (rot (d_R (d2 t)) (ang (d_v (d2 t)))) = 0%R) /\
    (let A := fun t => d_R (d1 t) in let B := fun t => d_R (d2 t) in
     (forall t, 0 <= t -> apart A B t = exp (- 1 * t)) /\
     1 * (apart A B 0 * apart A B 0) + speed2 (fun t => rot (d_R (d1 t)) (ang (d_v (d1 t)))) (fun t => rot (d_R (d2 t)) (ang (d_v (d2 t)))) 0 <= 1 * (3 / 2 * (3 / 2)))%R.
Proof.
  intros HL HP. destruct (tf_config log3 "frames" 6 (v6 (fun _ => 1%R)) (v6 (fun _ => 2%R))) as (s & M & MS & KP & KD); auto.
  assert (RUN : forall t, exists s', @tf_step Rnum Rtrunc log3 s (YCompute (sd t) zero_data) = Ret s' tt).
  { intros t. apply (tf_defined Rtrunc log3 "frames" 6 s (sd t) zero_data M). rewrite MS. split; [cbn; lia|]. destruct (mdim_01 _ (ones_n_01 6)) as [-> _]. cbn [vlen ones_n]. lia. }
  exists (fun _ => s), (fun t => match @tf_step Rnum Rtrunc log3 s (YCompute (sd t) zero_data) with Ret s' _ => s' | _ => s end), sd, (fun _ => zero_data), sy.
  assert (Z2 : forall t i, accel 6 (d_J zero_data) (d_a zero_data) (sy t) i = 0%R).
  { intros t i. unfold accel. cbn [zero_data d_J d_a]. rewrite rsum_zero; [ring|]. intros c _. change (@n0 Rnum) with 0%R. ring. }
  assert (RE : forall t, (0 <= t)%R -> rot_error log3 (zrot (g t)) id6 0 = 0%R /\ rot_error log3 (zrot (g t)) id6 1 = 0%R /\ rot_error log3 (zrot (g t)) id6 2 = (- g t)%R).
  { intros t Ht. apply back_error; [exact HP|reflexivity|exact id6_proper|]. assert (G := g_range t Ht). assert (G' := g_pi t Ht). lra. }
  assert (ID0 : forall (x : rvec) i, i < 3 -> (forall k, k < 3 -> x k = 0%R) -> rot id6 x i = 0%R) by (intros x i Hi H; unfold rot; rewrite !H by lia; ring).
  split; [|split; [exact sd_spins|split; [|split; [|split]]]].
  - intros t Ht. split; [exact M|]. split; [apply zrot_proper|]. split; [apply id6_proper|]. split; [intros i Hi; rewrite MS, KP, KD; repeat split|].
    destruct (RUN t) as (s' & ER). rewrite ER. split; [reflexivity|]. destruct (RE t Ht) as (E0 & E1 & E2).
    apply (tf_meaning log3 HL _ _ _ (sd t) zero_data _ M (proj1 (zrot_proper (g t))) ER). cbv zeta. change (d_R (sd t)) with (zrot (g t)). change (d_R zero_data) with (id6 : rmat). split.
    + intros k Hk _. rewrite (rot_ext _ (accel 6 (d_J (sd t)) (d_a (sd t)) (sy t)) (fun _ => 0%R)) by (intros i Hi; rewrite sd_accel by lia; three i; reflexivity).
      rewrite (ID0 (accel 6 _ _ _) k Hk) by (intros i _; apply Z2). rewrite (ID0 (d_v zero_data) k Hk) by reflexivity.
      rewrite (rot_ext _ (d_v (sd t)) (fun _ => 0%R)) by (intros i Hi; three i; reflexivity). rewrite !(proj1 (zrot_zero (g t) k Hk)). cbn. ring.
    + intros k Hk _. rewrite (zrot_z (g t) (ang (accel 6 _ _ _))); [|unfold ang; rewrite sd_accel by lia; reflexivity..|exact Hk]. unfold ang at 1. rewrite sd_accel by lia.
      rewrite (ID0 (ang (accel 6 _ _ _)) k Hk) by (intros i _; apply Z2). rewrite (ID0 (ang (d_v zero_data)) k Hk) by reflexivity.
      rewrite KP, KD, (zrot_z (g t) (rot_error log3 (zrot (g t)) id6) E0 E1 k Hk), (zrot_z (g t) (ang (d_v (sd t))) eq_refl eq_refl k Hk).
      unfold sy, ang. three k; [rewrite E0|rewrite E1|rewrite E2]; cbn; ring.
  - apply spins_ext with (4 := still_spins).
    + reflexivity.
    + intros t i Hi. apply (ID0 (ang (d_v zero_data)) i Hi). reflexivity.
    + intros t i Hi. apply (ID0 (ang (accel 6 _ _ _)) i Hi). intros k _. apply Z2.
  - intros t _. unfold dot3. change (d_R zero_data) with (id6 : rmat). rewrite !(ID0 (ang (d_v zero_data))) by (lia || reflexivity). ring.
  - intros t Ht. change (turn_of (tr_mul (zrot (g t)) id6) = g t). apply back_turn; [reflexivity|]. assert (G := g_range t Ht). assert (G' := g_pi t Ht). lra.
  - assert (X : apart (fun t => d_R (sd t)) (fun _ => d_R zero_data) 0 = 1%R).
    { unfold apart. change (turn_of (tr_mul (zrot (g 0)) id6) = 1%R). rewrite back_turn; [unfold g; rewrite Rmult_0_r; apply exp_0|reflexivity|]. assert (G := g_range 0 (Rle_refl 0)). assert (G' := g_pi 0 (Rle_refl 0)). lra. }
    rewrite X. unfold speed2, dot3. change (d_R (sd 0)) with (zrot (g 0)). change (d_R zero_data) with (id6 : rmat).
    rewrite !(ID0 (ang (d_v zero_data))) by (lia || reflexivity).
    rewrite !(zrot_z (g 0) (ang (d_v (sd 0))) eq_refl eq_refl) by lia. unfold ang. cbn. unfold g. rewrite Rmult_0_r, exp_0. lra.
Qed.
