(** The joint bound tasks over every sequence of calls. *)
From Coq Require Import String List Arith Bool ZArith QArith Reals Lia Lra.
From Verif Require Import Scalar Outcome Linalg Constraint FormPhysSpec RSum Masks MaskReal JointBounds JointSpec JointReal JointLimits JointViab.
Import ListNotations.
Open Scope nat_scope.

(** Entry [i] of the last [n] entries of a vector. *)
Definition last_of {K : num} (n : nat) (v : vec K) (i : nat) : K := vget v (vlen v - n + i).
Lemma vtail_some {K : num} (v : vec K) n u : vtail v n = Some u -> n <= vlen v /\ vlen u = n /\ forall i, vget u i = last_of n v i.
Proof.
  unfold vtail. destruct (n <=? vlen v) eqn:E; [|discriminate]. apply Nat.leb_le in E.
  unfold vsegment. replace (vlen v - n + n <=? vlen v) with true by (symmetry; apply Nat.leb_le; lia).
  intros X. injection X as <-. auto.
Qed.
Lemma vtail_def {K : num} (v : vec K) n : n <= vlen v -> exists u, vtail v n = Some u /\ vlen u = n /\ forall i, vget u i = last_of n v i.
Proof.
  intros H. unfold vtail. replace (n <=? vlen v) with true by (symmetry; apply Nat.leb_le; lia).
  unfold vsegment. replace (vlen v - n + n <=? vlen v) with true by (symmetry; apply Nat.leb_le; lia).
  eexists. split; [reflexivity|]. auto.
Qed.
Lemma vsub_some {K : num} (u v w : vec K) : vsub u v = Some w -> vlen u = vlen v /\ vlen w = vlen u /\ forall i, vget w i = (vget u i - vget v i)%num.
Proof. unfold vsub. destruct (vlen u =? vlen v) eqn:E; [|discriminate]. apply Nat.eqb_eq in E. intros X. injection X as <-. auto. Qed.
Lemma vsub_def {K : num} (u v : vec K) : vlen u = vlen v -> exists w, vsub u v = Some w /\ vlen w = vlen u /\ forall i, vget w i = (vget u i - vget v i)%num.
Proof. intros H. unfold vsub. rewrite H, Nat.eqb_refl. eexists. split; [reflexivity|]. auto. Qed.

(** * TaskJointBounds *)
(** Reached by any sequence of calls after a constructor call for a robot with [na]
    actuated joints among [nv] velocities. *)
Definition jmade {K : num} (name : string) (nv na : nat) (s : jb K) : Prop :=
  exists dt s0, jb_new name nv na dt = Some s0 /\ reach jb_step (fun _ _ => True) s0 s.
Section J.
Context {K : num}.
Definition jinv (name : string) (nv na : nat) (s : jb K) : Prop :=
  b_na s = na /\ b_nv s = nv /\ (n0 <? b_dt s)%num = true /\
  vlen (b_vlb s) = na /\ vlen (b_vub s) = na /\ vlen (b_alb s) = na /\ vlen (b_aub s) = na /\
  c_name (b_c s) = name /\ c_kind (b_c s) = CBound /\ c_mat (b_c s) = mident nv nv /\
  vlen (c_lb (b_c s)) = nv /\ vlen (c_ub (b_c s)) = nv /\
  forall r, r < nv - na -> vget (c_lb (b_c s)) r = mhuge /\ vget (c_ub (b_c s)) r = huge.
(** The constraint computed from velocity [v]. *)
Definition jrow (s : jb K) (v : vec K) (c : constr K) : Prop :=
  c_name c = c_name (b_c s) /\ c_kind c = CBound /\ c_mat c = mident (b_nv s) (b_nv s) /\
  vlen (c_lb c) = b_nv s /\ vlen (c_ub c) = b_nv s /\
  (forall r, r < b_nv s - b_na s -> vget (c_lb c) r = mhuge /\ vget (c_ub c) r = huge) /\
  forall i, i < b_na s ->
    vget (c_lb c) (b_nv s - b_na s + i) = nmax ((vget (b_vlb s) i - last_of (b_na s) v i) / b_dt s)%num (vget (b_alb s) i) /\
    vget (c_ub c) (b_nv s - b_na s + i) = nmin ((vget (b_vub s) i - last_of (b_na s) v i) / b_dt s)%num (vget (b_aub s) i).
Definition same_params (s s' : jb K) : Prop :=
  b_na s' = b_na s /\ b_nv s' = b_nv s /\ b_dt s' = b_dt s /\ b_vlb s' = b_vlb s /\ b_vub s' = b_vub s /\
  b_alb s' = b_alb s /\ b_aub s' = b_aub s.
Lemma jb_compute_def name nv na (s : jb K) v : na <= nv -> jinv name nv na s -> na <= vlen v ->
  exists s', jb_compute s v = Some s' /\ jrow s v (b_c s') /\ same_params s s'.
Proof.
  intros Hn (I1 & I2 & I3 & I4 & I5 & I6 & I7 & I8 & I9 & I10 & I11 & I12 & I13) Hv. unfold jb_compute. rewrite I1.
  destruct (vtail_def v na Hv) as (vt & -> & T1 & T2). cbn [obind].
  destruct (vsub_def (b_vub s) vt) as (du & -> & U1 & U2); [lia|]. cbn [obind].
  destruct (vsub_def (b_vlb s) vt) as (dl & -> & L1 & L2); [lia|]. cbn [obind].
  rewrite I6, I7, Nat.eqb_refl. cbn [andb guard obind]. eexists. split; [reflexivity|].
  split; [|repeat split; auto]. unfold jrow. cbn [b_c c_name c_kind c_mat c_lb c_ub over vlen vget]. rewrite I1, I2.
  repeat (split; [assumption || reflexivity|]). split.
  - intros r Hr. replace (nv - na <=? r) with false by (symmetry; apply Nat.leb_gt; lia). cbn [andb]. apply I13. exact Hr.
  - intros i Hi. replace (nv - na <=? nv - na + i) with true by (symmetry; apply Nat.leb_le; lia).
    replace (nv - na + i <? nv - na + na) with true by (symmetry; apply Nat.ltb_lt; lia). cbn [andb].
    replace (nv - na + i - (nv - na)) with i by lia. rewrite U2, L2, T2. split; reflexivity.
Qed.
Lemma jb_compute_inv (s : jb K) v s' : jb_compute s v = Some s' -> b_na s <= vlen v.
Proof. unfold jb_compute. destruct (vtail v (b_na s)) eqn:E; [|discriminate]. intros _. apply (vtail_some _ _ _ E). Qed.
Lemma jinv_row name nv na s v s' : jinv name nv na s -> jrow s v (b_c s') -> same_params s s' -> jinv name nv na s'.
Proof.
  intros (I1 & I2 & I3 & I4 & I5 & I6 & I7 & I8 & I9 & I10 & I11 & I12 & I13) (R1 & R2 & R3 & R4 & R5 & R6 & R7) (P1 & P2 & P3 & P4 & P5 & P6 & P7).
  unfold jinv. rewrite P1, P2, P3, P4, P5, P6, P7, R1, R2, R3, R4, R5, I2. rewrite I1, I2 in R6.
  repeat (split; [assumption || reflexivity|]). assumption.
Qed.
Lemma jinv_new name nv na dt (s : jb K) : na <= nv -> jb_new name nv na dt = Some s -> jinv name nv na s.
Proof.
  intros Hn. unfold jb_new. destruct (n0 <? dt)%num eqn:E; [|discriminate]. intros X. injection X as <-.
  unfold jinv. cbn [b_na b_nv b_dt b_vlb b_vub b_alb b_aub b_c vlen c_name c_kind c_mat c_lb c_ub over new_bound vzero vget].
  repeat (split; [reflexivity || assumption|]). intros r Hr.
  replace (r <? 0 + (nv - na)) with true by (symmetry; apply Nat.ltb_lt; lia). cbn [Nat.leb andb]. split; reflexivity.
Qed.
Lemma jinv_step name nv na s o s' : na <= nv -> jinv name nv na s -> after (jb_step s o) = Some s' -> jinv name nv na s'.
Proof.
  intros Hn I. assert (I' := I). destruct I as (I1 & I2 & I3 & I4 & I5 & I6 & I7 & IR).
  destruct o as [dt|l u|l u|m|v]; cbn [jb_step].
  - destruct (n0 <? dt)%num eqn:E; intros X; injection X as <-; [|exact I']. unfold jinv. cbn [b_na b_nv b_dt b_vlb b_vub b_alb b_aub b_c]. tauto.
  - destruct ((vlen l =? b_na s) && (vlen u =? b_na s)) eqn:E; intros X; injection X as <-; [|exact I'].
    apply andb_true_iff in E as [A B]. apply Nat.eqb_eq in A, B. unfold jinv. cbn [b_na b_nv b_dt b_vlb b_vub b_alb b_aub b_c].
    repeat (split; [congruence|]). exact IR.
  - destruct ((vlen l =? b_na s) && (vlen u =? b_na s)) eqn:E; intros X; injection X as <-; [|exact I'].
    apply andb_true_iff in E as [A B]. apply Nat.eqb_eq in A, B. unfold jinv. cbn [b_na b_nv b_dt b_vlb b_vub b_alb b_aub b_c].
    repeat (split; [congruence|]). exact IR.
  - intros X; injection X as <-; exact I'.
  - destruct (jb_compute s v) as [t|] eqn:E; [|discriminate]. intros X; injection X as <-.
    assert (Hv := jb_compute_inv _ _ _ E). rewrite I1 in Hv.
    destruct (jb_compute_def name nv na s v Hn I' Hv) as (t' & E' & R & P). rewrite E' in E. injection E as <-.
    eapply jinv_row; eassumption.
Qed.
Lemma jmade_inv name nv na (s : jb K) : na <= nv -> jmade name nv na s -> jinv name nv na s.
Proof.
  intros Hn (dt & s0 & H0 & Hr). apply (reach_inv jb_step (fun _ _ => True) (jinv name nv na) s0 s).
  - eapply jinv_new; eassumption.
  - intros s1 o s2 I _ E. eapply jinv_step; eassumption.
  - exact Hr.
Qed.
(** Compute is defined for every velocity vector with room for the joints; what the
    getters return does not change. *)
Theorem jb_computes name nv na (s : jb K) v : na <= nv -> jmade name nv na s -> na <= vlen v ->
  exists s', jb_step s (JCompute v) = Ret s' tt /\ jrow s v (b_c s') /\ same_params s s' /\ jmade name nv na s'.
Proof.
  intros Hn Hm Hv. destruct (jb_compute_def name nv na s v Hn (jmade_inv _ _ _ _ Hn Hm) Hv) as (s' & E & R & P).
  assert (ES : jb_step s (JCompute v) = Ret s' tt) by (cbn [jb_step]; rewrite E; reflexivity).
  exists s'. repeat (split; [assumption|]). destruct Hm as (dt & s0 & H0 & Hr). exists dt, s0. split; [exact H0|].
  eapply reach_step; [exact Hr|exact I|]. rewrite ES. reflexivity.
Qed.
(** Two tasks with the same parameters compute the same constraint, whatever happened
    before. *)
Theorem jb_no_memory name nv na (s1 s2 : jb K) v s1' s2' : na <= nv -> jmade name nv na s1 -> jmade name nv na s2 ->
  b_dt s1 = b_dt s2 -> b_vlb s1 = b_vlb s2 -> b_vub s1 = b_vub s2 -> b_alb s1 = b_alb s2 -> b_aub s1 = b_aub s2 ->
  jb_step s1 (JCompute v) = Ret s1' tt -> jb_step s2 (JCompute v) = Ret s2' tt ->
  c_kind (b_c s1') = c_kind (b_c s2') /\ c_mat (b_c s1') = c_mat (b_c s2') /\
  veq (c_lb (b_c s1')) (c_lb (b_c s2')) /\ veq (c_ub (b_c s1')) (c_ub (b_c s2')).
Proof.
  intros Hn M1 M2 E1 E2 E3 E4 E5 C1 C2.
  assert (J1 := jmade_inv _ _ _ _ Hn M1). assert (J2 := jmade_inv _ _ _ _ Hn M2).
  assert (Hv : na <= vlen v).
  { cbn [jb_step] in C1. destruct (jb_compute s1 v) eqn:E; [|discriminate]. apply jb_compute_inv in E. destruct J1 as [A _]. rewrite A in E. exact E. }
  destruct (jb_computes _ _ _ s1 v Hn M1 Hv) as (t1 & X1 & R1 & _). destruct (jb_computes _ _ _ s2 v Hn M2 Hv) as (t2 & X2 & R2 & _).
  rewrite X1 in C1. injection C1 as <-. rewrite X2 in C2. injection C2 as <-.
  destruct J1 as (A1 & A2 & _), J2 as (B1 & B2 & _).
  destruct R1 as (_ & Q1 & Q2 & Q3 & Q4 & Q5 & Q6), R2 as (_ & S1 & S2 & S3 & S4 & S5 & S6).
  rewrite A1, A2 in *. rewrite B1, B2 in *.
  split; [congruence|]. split; [congruence|].
  assert (G : forall r, r < nv -> vget (c_lb (b_c t1)) r = vget (c_lb (b_c t2)) r /\ vget (c_ub (b_c t1)) r = vget (c_ub (b_c t2)) r).
  { intros r Hr. destruct (Nat.lt_ge_cases r (nv - na)) as [L|L].
    - destruct (Q5 r L) as [-> ->], (S5 r L) as [-> ->]. auto.
    - replace r with (nv - na + (r - (nv - na))) by lia.
      destruct (Q6 (r - (nv - na)) ltac:(lia)) as [-> ->], (S6 (r - (nv - na)) ltac:(lia)) as [-> ->].
      rewrite E1, E2, E3, E4, E5. auto. }
  split; (split; [congruence|]); intros r Hr; apply G; congruence.
Qed.
End J.

(** Meaning over the reals. *)
Lemma lhs_bound (c : constr Rnum) y r : c_kind c = CBound -> lhs c y r = y r.
Proof. intros E. unfold lhs. rewrite E. reflexivity. Qed.
Section JR.
Open Scope R_scope.
Lemma vel_box_lo (l v dt y : R) : 0 < dt -> ((l - v) / dt <= y <-> l <= v + dt * y).
Proof.
  intros H. split; intros X.
  - apply Rmult_le_compat_r with (r := dt) in X; [|lra]. unfold Rdiv in X. rewrite Rmult_assoc, Rinv_l in X by lra. lra.
  - apply Rmult_le_reg_r with dt; [lra|]. unfold Rdiv. rewrite Rmult_assoc, Rinv_l by lra. lra.
Qed.
Lemma vel_box_up (l v dt y : R) : 0 < dt -> (y <= (l - v) / dt <-> v + dt * y <= l).
Proof.
  intros H. split; intros X.
  - apply Rmult_le_compat_r with (r := dt) in X; [|lra]. unfold Rdiv in X. rewrite Rmult_assoc, Rinv_l in X by lra. lra.
  - apply Rmult_le_reg_r with dt; [lra|]. unfold Rdiv. rewrite Rmult_assoc, Rinv_l by lra. lra.
Qed.
(** The acceleration [y] respects the limits of the task at velocity [v]. *)
Definition joint_box (nv na : nat) (s : jb Rnum) (v : vec Rnum) (y : nat -> R) : Prop :=
  (forall r, (r < nv - na)%nat -> - 10 ^ 10 <= y r <= 10 ^ 10) /\
  forall i, (i < na)%nat ->
    (vget (b_vlb s) i <= last_of na v i + b_dt s * y (nv - na + i)%nat <= vget (b_vub s) i) /\
    (vget (b_alb s) i <= y (nv - na + i)%nat <= vget (b_aub s) i).
Theorem jb_meaning name nv na (s s' : jb Rnum) v : (na <= nv)%nat -> jmade name nv na s ->
  jb_step s (JCompute v) = Ret s' tt -> forall y, sat (b_c s') y <-> joint_box nv na s v y.
Proof.
  intros Hn Hm E y. assert (J := jmade_inv _ _ _ _ Hn Hm).
  assert (Hv : (na <= vlen v)%nat).
  { cbn [jb_step] in E. destruct (jb_compute s v) eqn:X; [|discriminate]. apply jb_compute_inv in X. destruct J as [A _]. rewrite A in X. exact X. }
  destruct (jb_computes _ _ _ s v Hn Hm Hv) as (t & X & R & _). rewrite X in E. injection E as <-.
  destruct J as (A1 & A2 & A3 & _). destruct R as (_ & Q1 & Q2 & Q3 & Q4 & Q5 & Q6). rewrite A1, A2 in *.
  assert (Hdt : 0 < b_dt s) by (apply Rltb_true in A3; exact A3).
  assert (GJ : forall i, (i < na)%nat ->
    (vget (c_lb (b_c t)) (nv - na + i) <= y (nv - na + i)%nat <= vget (c_ub (b_c t)) (nv - na + i) <->
     (vget (b_vlb s) i <= last_of na v i + b_dt s * y (nv - na + i)%nat <= vget (b_vub s) i) /\
     (vget (b_alb s) i <= y (nv - na + i)%nat <= vget (b_aub s) i))).
  { intros i Hi. destruct (Q6 i Hi) as [-> ->]. cbn [Rnum nsub ndiv]. rewrite nmax_R, nmin_R, max_le, le_min, vel_box_lo, vel_box_up by exact Hdt. tauto. }
  unfold sat, joint_box. rewrite Q1, Q3. split.
  - intros H. split.
    + intros r Hr. specialize (H r ltac:(lia)). rewrite lhs_bound in H by exact Q1. destruct (Q5 r Hr) as [L U].
      rewrite L, U, huge_R, mhuge_R in H. exact H.
    + intros i Hi. specialize (H (nv - na + i)%nat ltac:(lia)). rewrite lhs_bound in H by exact Q1. apply GJ; assumption.
  - intros [H1 H2] r Hr. rewrite lhs_bound by exact Q1. destruct (Nat.lt_ge_cases r (nv - na)) as [L|L].
    + destruct (Q5 r L) as [-> ->]. rewrite huge_R, mhuge_R. apply H1. exact L.
    + replace r with (nv - na + (r - (nv - na)))%nat by lia. apply GJ; [lia|]. apply H2. lia.
Qed.
(** Ordered bounds: the computed interval of joint [i] is not empty iff its velocity
    can be brought back within one step. *)
Theorem jb_interval name nv na (s s' : jb Rnum) v i : (na <= nv)%nat -> jmade name nv na s ->
  jb_step s (JCompute v) = Ret s' tt -> (i < na)%nat ->
  vget (b_vlb s) i <= vget (b_vub s) i -> vget (b_alb s) i <= vget (b_aub s) i ->
  (vget (c_lb (b_c s')) (nv - na + i) <= vget (c_ub (b_c s')) (nv - na + i) <->
   vget (b_vlb s) i - b_dt s * vget (b_aub s) i <= last_of na v i <= vget (b_vub s) i - b_dt s * vget (b_alb s) i).
Proof.
  intros Hn Hm E Hi HV HA. assert (J := jmade_inv _ _ _ _ Hn Hm).
  assert (Hv : (na <= vlen v)%nat).
  { cbn [jb_step] in E. destruct (jb_compute s v) eqn:X; [|discriminate]. apply jb_compute_inv in X. destruct J as [A _]. rewrite A in X. exact X. }
  destruct (jb_computes _ _ _ s v Hn Hm Hv) as (t & X & R & _). rewrite X in E. injection E as <-.
  destruct J as (A1 & A2 & A3 & _). destruct R as (_ & _ & _ & _ & _ & _ & Q6). rewrite A1, A2 in *.
  assert (Hdt : 0 < b_dt s) by (apply Rltb_true in A3; exact A3).
  destruct (Q6 i Hi) as [-> ->]. cbn [Rnum nsub ndiv]. rewrite nmax_R, nmin_R, max_le, !le_min.
  rewrite (vel_box_lo _ _ _ (vget (b_aub s) i) Hdt), (vel_box_up _ _ _ (vget (b_alb s) i) Hdt).
  assert (D : (vget (b_vlb s) i - last_of na v i) / b_dt s <= (vget (b_vub s) i - last_of na v i) / b_dt s).
  { apply Rmult_le_compat_r; [apply Rlt_le, Rinv_0_lt_compat, Hdt|]. apply Rplus_le_compat_r. exact HV. }
  split.
  - intros ((_ & B) & (C & _)). split; lra.
  - intros [B C]. split; split; try assumption; lra.
Qed.
End JR.

(** ** setTimeStep of TaskJointBounds *)
Section Dt.
Context {K : num}.
(** Constructed with [dt], then any calls except setTimeStep. *)
Definition jmade_dt (name : string) (nv na : nat) (dt : K) (s : jb K) : Prop :=
  exists s0, jb_new name nv na dt = Some s0 /\ reach jb_step (fun _ o => match o with JDt _ => False | _ => True end) s0 s.
Lemma jmade_dt_made name nv na dt s : jmade_dt name nv na dt s -> jmade name nv na s.
Proof.
  intros (s0 & H0 & Hr). exists dt, s0. split; [exact H0|]. clear H0. induction Hr as [|s o s' Hr IH Hp E]; [apply reach_init|].
  eapply reach_step; [exact IH|exact I|exact E].
Qed.
Lemma jmade_dt_dt name nv na dt s : jmade_dt name nv na dt s -> b_dt s = dt.
Proof.
  intros (s0 & H0 & Hr). apply (reach_inv jb_step (fun _ o => match o with JDt _ => False | _ => True end) (fun s => b_dt s = dt) s0 s).
  - unfold jb_new in H0. destruct (n0 <? dt)%num; [|discriminate]. injection H0 as <-. reflexivity.
  - intros s1 o s2 E Hp X. destruct o as [d|l u|l u|m|v]; [destruct Hp| | | |]; cbn [jb_step] in X.
    + destruct (_ && _); injection X as <-; exact E.
    + destruct (_ && _); injection X as <-; exact E.
    + injection X as <-; exact E.
    + unfold jb_compute in X. destruct (vtail v _); [|discriminate]. cbn [obind] in X. destruct (vsub (b_vub s1) _); [|discriminate]. cbn [obind] in X.
      destruct (vsub (b_vlb s1) _); [|discriminate]. cbn [obind] in X. destruct (guard _); [|discriminate]. cbn [obind] in X. injection X as <-. exact E.
  - exact Hr.
Qed.
Theorem jb_set_time_step name nv na dt (s s1 s2 : jb K) v s1' s2' : na <= nv -> jmade name nv na s ->
  jb_step s (JDt dt) = Ret s1 tt -> jmade_dt name nv na dt s2 ->
  b_vlb s = b_vlb s2 -> b_vub s = b_vub s2 -> b_alb s = b_alb s2 -> b_aub s = b_aub s2 ->
  jb_step s1 (JCompute v) = Ret s1' tt -> jb_step s2 (JCompute v) = Ret s2' tt ->
  c_kind (b_c s1') = c_kind (b_c s2') /\ c_mat (b_c s1') = c_mat (b_c s2') /\
  veq (c_lb (b_c s1')) (c_lb (b_c s2')) /\ veq (c_ub (b_c s1')) (c_ub (b_c s2')).
Proof.
  intros Hn M E M2 B1 B2 B3 B4 C1 C2. assert (M1 : jmade name nv na s1).
  { destruct M as (d & s0 & H0 & Hr). exists d, s0. split; [exact H0|]. eapply reach_step with (o := JDt dt); [exact Hr|exact I|]. rewrite E. reflexivity. }
  cbn [jb_step] in E. destruct (n0 <? dt)%num; [|discriminate]. injection E as <-.
  assert (ED := jmade_dt_dt _ _ _ _ _ M2). apply jmade_dt_made in M2.
  eapply jb_no_memory; [exact Hn|exact M1|exact M2|..|exact C1|exact C2]; cbn [b_dt b_vlb b_vub b_alb b_aub]; congruence.
Qed.
End Dt.
