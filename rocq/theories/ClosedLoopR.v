(** Closed loops that exist: the hypotheses of ClosedLoop.v hold for robots whose error is
    exp(-t), for gains kp = 1 and kd = 2. *)
From Coq Require Import String List Arith Bool ZArith Reals Lia Lra.
From Verif Require Import Scalar Outcome Linalg Constraint FormPhysSpec RSum Masks MaskReal JointBounds JointTask JointTasks JointTasksP JointTasksR
  FrameTasks FrameTasksP FrameTasksR FrameSetters FrameRefute LinearLoop ClosedLoop.
Import ListNotations.
Open Scope nat_scope.

Definition g (t : R) : R := exp (-1 * t).
Lemma g_twice : twice g (fun t => (- g t)%R) g.
Proof.
  intros t _. unfold g. split.
  - eapply deriv_val; [apply deriv_exp|]. ring.
  - eapply deriv_val; [apply (deriv_ext (fun u => -1 * exp (-1 * u))%R); [intros u; ring|]; apply (deriv_mult (fun _ => (-1)%R)); [apply deriv_const|apply deriv_exp]|]. ring.
Qed.
Lemma twice_ext x x1 x2 y y1 y2 : (forall t, x t = y t) -> (forall t, x1 t = y1 t) -> (forall t, x2 t = y2 t) -> twice x x1 x2 -> twice y y1 y2.
Proof.
  intros A B C H t Ht. destruct (H t Ht) as [H1 H2]. rewrite <- B, <- C. split; [apply deriv_ext with (1 := A)|apply deriv_ext with (1 := B)]; assumption.
Qed.
Lemma zero_twice : twice (fun _ => 0%R) (fun _ => 0%R) (fun _ => 0%R).
Proof. intros t _. split; apply deriv_const. Qed.

Theorem posture_loop : exists (s s' : R -> post Rnum) (q v : R -> vec Rnum) (y : R -> nat -> R),
    respects dif1 /\ plain_joint dif1 1 1 1 0 /\
    (forall t, (0 <= t)%R -> tmade Rtrunc dif1 "posture" (vzero 1) 1 1 1 (s t) /\ active (t_mask (s t)) 0 /\ vget (t_kp (s t)) 0 = 1%R /\ vget (t_kd (s t)) 0 = 2%R /\
       post_step Rtrunc dif1 (s t) (TCompute (q t) (v t)) = Ret (s' t) tt /\ sat (t_c (s' t)) (y t)) /\
    twice (fun t => vget (q t) 0) (fun t => last_of 1 (v t) 0) (fun t => y t 0) /\
    twice (fun t => vget (t_val (s t)) 0) (fun t => vget (t_der (s t)) 0) (fun t => vget (t_sec (s t)) 0) /\
    (vget (q 0%R) 0 - vget (t_val (s 0%R)) 0 = 1)%R.
Proof.
  destruct (one_joint "posture" 1%R 2%R) as (s & M & A & KP & KD & RV & RD & RS).
  assert (RUN : forall t, exists s', post_step Rtrunc dif1 s (TCompute (one (g t)) (one (- g t))) = Ret s' tt).
  { intros t. destruct (post_defined Rtrunc dif1 good_ones_R "posture" (vzero 1) 1 1 1 s (one (g t)) (one (- g t))) as (s' & E & _); try (cbn; lia); [exact M|]. eauto. }
  exists (fun _ => s), (fun t => match post_step Rtrunc dif1 s (TCompute (one (g t)) (one (- g t))) with Ret s' _ => s' | _ => s end),
    (fun t => one (g t)), (fun t => one (- g t)), (fun t _ => g t).
  split; [apply respects_dif1|]. split; [apply plain_dif1|]. split; [|split; [|split]].
  - intros t _. split; [exact M|]. split; [exact A|]. split; [exact KP|]. split; [exact KD|]. destruct (RUN t) as (s' & E). rewrite E. split; [reflexivity|].
    apply (post_meaning dif1 "posture" (vzero 1) 1 1 1 s (one (g t)) (one (- g t)) s'); [apply respects_dif1|lia|cbn; lia|exact M|exact E|].
    intros i Hi _. assert (i = 0) by lia. subst i. rewrite KP, KD, RD, RS.
    assert (HP := plain_dif1 (ref_config (vzero 1) (t_val s)) (one (g t)) eq_refl eq_refl). rewrite HP.
    destruct (post_sizes dif1 "posture" (vzero 1) 1 1 s (one (g t)) (one (- g t)) s') as [_ LV]; [lia|cbn; lia|exact M|exact E|].
    assert (RE := ref_entry (vzero 1) (t_val s) 0). rewrite LV in RE. cbn [vlen vzero Nat.sub Nat.add] in RE |- *. rewrite RE by lia. rewrite RV. cbn. ring.
  - exact g_twice.
  - apply twice_ext with (4 := zero_twice); intros t; symmetry; assumption.
  - rewrite RV. cbn. unfold g. rewrite Rmult_0_r, exp_0. lra.
Qed.

Definition cd (t : R) : cdata Rnum := @mkCd Rnum (fun _ => g t) (fun _ => (- g t)%R) (fun _ => 0%R) id6.
Lemma accel_id6 nv (dr y : rvec) i : i < nv -> accel nv id6 dr y i = (y i + dr i)%R.
Proof.
  intros Hi. unfold accel. rewrite (rsum_single nv i).
  - unfold id6. rewrite Nat.eqb_refl. ring.
  - exact Hi.
  - intros c Hc Hne. unfold id6. replace (i =? c) with false by (symmetry; apply Nat.eqb_neq; lia). ring.
Qed.
Theorem com_loop : exists (s s' : R -> comt Rnum) (d : R -> cdata Rnum) (y : R -> nat -> R), forall i, i < 3 ->
    (forall t, (0 <= t)%R -> @com_made Rnum Rtrunc "com" 3 (s t) /\ on (z_mask (s t)) i /\ z_kp (s t) i = 1%R /\ z_kd (s t) i = 2%R /\
       com_step Rtrunc (s t) (ZCompute (d t)) = Ret (s' t) tt /\ sat (h_c (z_h (s' t))) (y t)) /\
    twice (fun t => g_p (d t) i) (fun t => g_v (d t) i) (fun t => accel 3 (g_J (d t)) (g_a (d t)) (y t) i) /\
    twice (fun t => vget (z_val (s t)) i) (fun t => vget (z_der (s t)) i) (fun t => vget (z_sec (s t)) i) /\
    (g_p (d 0%R) i - vget (z_val (s 0%R)) i = 1)%R.
Proof.
  destruct (com_start "com" 3) as (s0 & M0 & A0 & _ & _ & V0 & D0 & S0).
  destruct (com_setters Rtrunc s0) as (H & _). destruct (H (@mkVec Rnum 3 (fun _ => 1%R)) eq_refl) as (s1 & E1 & C1 & _).
  destruct (com_setters Rtrunc s1) as (_ & H' & _). destruct (H' (@mkVec Rnum 3 (fun _ => 2%R)) eq_refl) as (s & E & C & _).
  unfold com_conf in C1, C. injection C1 as K1 K2 K3 K4 K5 K6. injection C as L1 L2 L3 L4 L5 L6.
  assert (M : com_made Rtrunc "com" 3 s).
  { destruct M0 as (jk & s00 & EE & RR). exists jk, s00. split; [exact EE|].
    eapply reach_step; [eapply reach_step; [exact RR|exact Logic.I|rewrite E1; reflexivity]|exact Logic.I|rewrite E; reflexivity]. }
  assert (MS : z_mask s = ones_n 3) by congruence. assert (VS : z_val s = @vzero Rnum 3) by congruence. assert (DS : z_der s = @vzero Rnum 3) by congruence. assert (SS : z_sec s = @vzero Rnum 3) by congruence.
  assert (RUN : forall t, exists s', com_step Rtrunc s (ZCompute (cd t)) = Ret s' tt).
  { intros t. apply (com_defined Rtrunc "com" 3 s (cd t) M). rewrite MS, VS, DS, SS. repeat split. destruct (mdim_01 _ (ones_n_01 3)) as [-> _]. cbn [vlen ones_n]. lia. }
  exists (fun _ => s), (fun t => match com_step Rtrunc s (ZCompute (cd t)) with Ret s' _ => s' | _ => s end), cd, (fun t _ => g t).
  intros i Hi. split; [|split; [|split]].
  - intros t _. split; [exact M|]. split; [rewrite MS; reflexivity|]. split; [rewrite L1, K1; reflexivity|]. split; [rewrite L2; reflexivity|].
    destruct (RUN t) as (s' & ER). rewrite ER. split; [reflexivity|]. apply (com_meaning _ _ _ _ _ M ER). intros j Hj _.
    rewrite L1, K1, L2, VS, DS, SS. cbn [cd g_J g_a g_p g_v vget]. rewrite accel_id6 by exact Hj. cbn. ring.
  - apply twice_ext with (4 := g_twice); intros t; try reflexivity. cbn [cd g_J g_a]. rewrite accel_id6 by exact Hi. ring.
  - rewrite VS, DS, SS. exact zero_twice.
  - rewrite VS. cbn. unfold g. rewrite Rmult_0_r, exp_0. lra.
Qed.

(** A frame moving without rotation, in both modes of the task. *)
Definition fd (t : R) : fdata Rnum := @mkFd Rnum id6 (fun _ => g t) (fun i => if i <? 3 then (- g t)%R else 0%R) (fun _ => 0%R) id6.
Definition fy (t : R) : rvec := fun i => if i <? 3 then g t else 0%R.
Definition at_origin : vec Rnum := v12 (fun i => match i with 3 | 7 | 11 => 1%R | _ => 0%R end).
Lemma id6_rot x i : i < 3 -> rot id6 x i = x i /\ rot (tr id6) x i = x i.
Proof. intros Hi. unfold rot, tr, id6. destruct i as [|[|[|i]]]; [| | |lia]; cbn; split; ring. Qed.
Lemma id6_orth : orthogonal id6.
Proof.
  intros x i Hi. split; [rewrite (proj1 (id6_rot _ i Hi)); apply id6_rot, Hi|rewrite (proj2 (id6_rot _ i Hi)); apply id6_rot, Hi].
Qed.
(** log3 of the identity. *)
Definition neutral_log (log3 : rmat -> rvec) : Prop := forall A, (forall a b, a < 3 -> b < 3 -> A a b = id6 a b) -> forall i, i < 3 -> log3 A i = 0%R.
Theorem frame_loop log3 b : reads9 log3 -> neutral_log log3 -> exists (s s' : R -> se3t Rnum) (d : R -> fdata Rnum) (y : R -> nat -> R), forall i, i < 3 ->
    (forall t, (0 <= t)%R -> @se3_made Rnum Rtrunc log3 "frame" 6 (s t) /\ x_local (s t) = b /\ orthogonal (d_R (d t)) /\ on (x_mask (s t)) i /\
       vget (x_kp (s t)) i = 1%R /\ vget (x_kd (s t)) i = 2%R /\
       @se3_step Rnum Rtrunc log3 (s t) (XCompute (d t)) = Ret (s' t) tt /\ sat (h_c (x_h (s' t))) (y t)) /\
    twice (fun t => d_p (d t) i) (fun t => rot (d_R (d t)) (d_v (d t)) i) (fun t => rot (d_R (d t)) (accel 6 (d_J (d t)) (d_a (d t)) (y t)) i) /\
    twice (fun t => x_pd (s t) i) (fun t => x_vd (s t) i) (fun t => x_ad (s t) i) /\
    (d_p (d 0%R) i - x_pd (s 0%R) i = 1)%R.
Proof.
  intros HL HN. destruct (se3_config log3 "frame" 6 (v6 (fun _ => 1%R)) (v6 (fun _ => 2%R)) at_origin (v6 (fun _ => 0%R)) (v6 (fun _ => 0%R)) b) as (s & M & MS & B & KP & KD & PD & RD & VD & AD); auto.
  assert (RUN : forall t, exists s', @se3_step Rnum Rtrunc log3 s (XCompute (fd t)) = Ret s' tt) by (intros t; exact (se3_runs log3 "frame" 6 s (fd t) M MS)).
  exists (fun _ => s), (fun t => match @se3_step Rnum Rtrunc log3 s (XCompute (fd t)) with Ret s' _ => s' | _ => s end), fd, fy.
  assert (AC : forall t i, i < 6 -> accel 6 (d_J (fd t)) (d_a (fd t)) (fy t) i = fy t i).
  { intros t i Hi. cbn [fd d_J d_a]. rewrite accel_id6 by exact Hi. ring. }
  assert (PZ : forall i, i < 3 -> x_pd s i = 0%R) by (intros i Hi; rewrite PD; destruct i as [|[|[|i]]]; [reflexivity..|lia]).
  assert (RE : forall i, i < 3 -> rot_error log3 id6 (x_Rd s) i = 0%R).
  { intros i Hi. apply HN; [|exact Hi]. intros a c Ha Hc. rewrite (proj2 (id6_rot _ a Ha)). rewrite RD. destruct a as [|[|[|a]]]; [| | |lia]; (destruct c as [|[|[|c]]]; [| | |lia]); reflexivity. }
  intros i Hi. split; [|split; [|split]].
  - intros t _. split; [exact M|]. split; [exact B|]. split; [apply id6_orth|]. split; [rewrite MS; reflexivity|]. split; [rewrite KP; reflexivity|]. split; [rewrite KD; reflexivity|].
    destruct (RUN t) as (s' & ER). rewrite ER. split; [reflexivity|]. destruct b.
    + apply (se3_meaning_local log3 HL _ _ _ _ _ M B ER). cbv zeta. split.
      * intros k Hk _. rewrite AC by lia. unfold local_lin. rewrite KP, KD, VD, AD. cbn [fd d_R d_p d_v v6 vget]. rewrite !(proj2 (id6_rot _ k Hk)). unfold vminus. rewrite PZ by exact Hk.
        unfold fy. replace (k <? 3) with true by (symmetry; apply Nat.ltb_lt; exact Hk). ring.
      * intros k Hk _. unfold ang at 1. rewrite AC by lia. unfold local_ang. rewrite KP, KD, VD, AD. cbn [fd d_R d_p d_v v6 vget]. rewrite !(proj2 (id6_rot _ k Hk)), RE by exact Hk.
        unfold fy, ang. replace (3 + k <? 3) with false by (symmetry; apply Nat.ltb_ge; lia). ring.
    + apply (se3_meaning_world log3 HL _ _ _ (fd t) _ M B id6_orth ER). cbv zeta. split.
      * intros k Hk _. cbn [fd d_R]. rewrite (proj1 (id6_rot _ k Hk)). fold (fd t). rewrite AC by lia. unfold world_lin. rewrite KP, KD, VD, AD. cbn [fd d_R d_p d_v v6 vget]. rewrite (proj1 (id6_rot _ k Hk)), PZ by exact Hk.
        unfold fy. replace (k <? 3) with true by (symmetry; apply Nat.ltb_lt; exact Hk). ring.
      * intros k Hk _. cbn [fd d_R]. rewrite (proj1 (id6_rot _ k Hk)). fold (fd t). unfold ang at 1. rewrite AC by lia. unfold world_ang. rewrite KP, KD, VD, AD. cbn [fd d_R d_p d_v v6 vget]. rewrite !(proj1 (id6_rot _ k Hk)), RE by exact Hk.
        unfold fy, ang. replace (3 + k <? 3) with false by (symmetry; apply Nat.ltb_ge; lia). ring.
  - apply twice_ext with (4 := g_twice); intros t; [reflexivity| |].
    + cbn [fd d_R d_v]. rewrite (proj1 (id6_rot _ i Hi)). replace (i <? 3) with true by (symmetry; apply Nat.ltb_lt; exact Hi). reflexivity.
    + cbn [fd d_R]. rewrite (proj1 (id6_rot _ i Hi)). fold (fd t). rewrite AC by lia. unfold fy. replace (i <? 3) with true by (symmetry; apply Nat.ltb_lt; exact Hi). reflexivity.
  - rewrite VD, AD. apply twice_ext with (4 := zero_twice); intros t; try reflexivity. symmetry. apply PZ, Hi.
  - rewrite PZ by exact Hi. cbn. unfold g. rewrite Rmult_0_r, exp_0. lra.
Qed.

(** Angular momentum. *)
Definition ad : adata Rnum := @mkAd Rnum id6 (fun _ => 0%R).
Theorem am_loop : exists (s s' : R -> amt Rnum) (v : R -> vec Rnum) (d : R -> adata Rnum) (y : R -> nat -> R), forall i, i < 3 ->
    (forall t, (0 <= t)%R -> @am_made Rnum "am" 3 (s t) /\ o_kp (s t) i = 1%R /\ am_step (s t) (OCompute (v t) (d t)) = Ret (s' t) tt /\ sat (o_c (s' t)) (y t)) /\
    (forall t, (0 <= t)%R -> derivable_pt_lim (fun u => am_momentum 3 (am_J (d u)) (vget (v u)) i) t (accel 3 (am_J (d t)) (am_d (d t)) (y t) i)) /\
    (forall t, (0 <= t)%R -> derivable_pt_lim (fun u => vget (o_val (s u)) i) t (vget (o_der (s t)) i)) /\
    (am_momentum 3 (am_J (d 0%R)) (vget (v 0%R)) i - vget (o_val (s 0%R)) i = 1)%R.
Proof.
  set (s0 := @am_new Rnum "am" 3). destruct (am_setters s0) as (H & _). destruct (H (@mkVec Rnum 3 (fun _ => 1%R)) eq_refl) as (s & E & C & OC).
  unfold am_conf in C. injection C as K1 K2 K3 K4 K5.
  assert (M : @am_made Rnum "am" 3 s) by (eapply reach_step with (o := OKp (@mkVec Rnum 3 (fun _ => 1%R))); [apply reach_init|exact Logic.I|fold s0; rewrite E; reflexivity]).
  set (w := fun t => @mkVec Rnum 3 (fun _ => g t)).
  assert (RUN : forall t, exists s', am_step s (OCompute (w t) ad) = Ret s' tt).
  { intros t. destruct (am_step s (OCompute (w t) ad)) as [s' []|s'|] eqn:ER; [eauto| |].
    - exfalso. revert ER. cbn [am_step]. destruct (am_compute s (w t) ad); discriminate.
    - exfalso. assert (R0 : reach am_step (ogood 3) (am_new "am" 3) s) by (eapply reach_step with (o := OKp (@mkVec Rnum 3 (fun _ => 1%R))); [apply reach_init|exact Logic.I|fold s0; rewrite E; reflexivity]).
      exact (am_safe "am" 3 s R0 (OCompute (w t) ad) eq_refl ER). }
  exists (fun _ => s), (fun t => match am_step s (OCompute (w t) ad) with Ret s' _ => s' | _ => s end), w, (fun _ => ad), (fun t _ => (- g t)%R).
  assert (MO : forall t i, i < 3 -> am_momentum 3 id6 (vget (w t)) i = g t).
  { intros t i Hi. assert (X := accel_id6 3 (fun _ => 0%R) (vget (w t)) i Hi). unfold accel in X. unfold am_momentum. cbn [w vget] in X |- *. lra. }
  intros i Hi. split; [|split; [|split]].
  - intros t _. split; [exact M|]. split; [rewrite K1; reflexivity|]. destruct (RUN t) as (s' & ER). rewrite ER. split; [reflexivity|].
    apply (am_meaning _ _ _ _ _ _ M ER). intros j Hj. cbn [ad am_J am_d]. rewrite accel_id6, MO by exact Hj. rewrite K1, K3, K4. cbn. ring.
  - intros t Ht. cbn [ad am_J am_d]. rewrite accel_id6 by exact Hi. apply (deriv_ext g); [intros u; symmetry; apply MO, Hi|].
    eapply deriv_val; [apply (g_twice t Ht)|]. ring.
  - intros t _. rewrite K3, K4. apply deriv_const.
  - cbn [ad am_J]. rewrite MO by exact Hi. rewrite K3. cbn. unfold g. rewrite Rmult_0_r, exp_0. lra.
Qed.
