(** The capture point and contact force tasks over the reals. *)
From Coq Require Import String List Arith Bool ZArith QArith Reals Lia Lra.
From Verif Require Import Scalar Outcome Linalg Constraint FormPhysSpec SolverSpec RSum JointTask FrameTasks FrameTasksR FrameTasksP ForceTasks.
Import ListNotations.
Open Scope string_scope.
Open Scope list_scope.
Open Scope nat_scope.

(** * Capture point *)
Notation cap_stepR := (@cap_step Rnum sqrt).
Definition cap_made (name : string) (nv : nat) (dt g : R) (s : capt Rnum) : Prop :=
  exists jk, reach cap_stepR (fun _ _ => True) (@cap_new Rnum name nv dt g jk) s.
Lemma cap_inv name nv dt g s : cap_made name nv dt g s -> v_nv s = nv /\ v_dt s = dt /\ v_g s = g /\ c_kind (v_c s) = CIneq /\
  mrows (c_mat (v_c s)) = 2 /\ mcols (c_mat (v_c s)) = nv /\ (forall i, (v_min s i <= v_max s i)%R).
Proof.
  intros [jk R]. revert R.
  apply (reach_inv _ _ (fun s : capt Rnum => v_nv s = nv /\ v_dt s = dt /\ v_g s = g /\ c_kind (v_c s) = CIneq /\ mrows (c_mat (v_c s)) = 2 /\ mcols (c_mat (v_c s)) = nv /\ (forall i, (v_min s i <= v_max s i)%R))).
  - cbn. repeat split; auto. intros; lra.
  - clear. intros s o s' (I1 & I2 & I3 & I4 & I5 & I6 & I7) _ E. destruct o; cbn [cap_step] in E.
    + destruct (nleb a b) eqn:L; cbn [after] in E; injection E as <-; cbn [v_nv v_dt v_g v_c v_min v_max]; repeat (split; [assumption|]); [|assumption].
      apply Rleb_true in L. intros i. destruct (i =? 0); auto.
    + destruct (nleb a b) eqn:L; cbn [after] in E; injection E as <-; cbn [v_nv v_dt v_g v_c v_min v_max]; repeat (split; [assumption|]); [|assumption].
      apply Rleb_true in L. intros i. destruct (i =? 1); auto.
    + cbn [after] in E. injection E as <-. cbn [v_nv v_dt v_g v_c v_min v_max]. auto 10.
    + unfold cap_compute in E. unfold cset_lb, cset_ub in E. rewrite I4 in E. cbn [obind c_kind c_mat c_name c_vec c_lb c_ub] in E. rewrite I5, I6, I1, !Nat.eqb_refl in E. cbn [andb guard obind after] in E.
      injection E as <-. cbn [v_nv v_dt v_g v_c v_min v_max cset_mat c_kind c_mat mrows mcols]. auto 10.
Qed.
(** Capture point p + v/w of a pendulum of frequency w; after a step of length dt with
    constant acceleration a. *)
Definition frequency (g z : R) : R := sqrt (g / z).
Definition end_capture (w dt p v a : R) : R := (let p1 := p + v * dt + a * (dt * dt) / 2 in let v1 := v + a * dt in p1 + v1 / w)%R.
Definition com_accel (nv : nat) (d : cdata Rnum) (dv : nat -> R) (i : nat) : R := (rsum nv (fun j => g_J d i j * dv j) + g_a d i)%R.
Lemma frequency_pos g z : (0 < g -> 0 < z -> 0 < frequency g z)%R.
Proof. intros. apply sqrt_lt_R0. apply Rdiv_lt_0_compat; assumption. Qed.
Lemma ka_pos w dt : (0 < w -> 0 < dt -> 0 < 2 * w / ((w * dt + 2) * dt))%R.
Proof. intros. apply Rdiv_lt_0_compat; [lra|]. apply Rmult_lt_0_compat; [|assumption]. apply Rplus_lt_0_compat; [|lra]. apply Rmult_lt_0_compat; assumption. Qed.
Lemma capture_gap w dt p v a r : (0 < w -> 0 < dt -> a - (2 * w / ((w * dt + 2) * dt)) * (r - p - v * (dt + 1 / w)) = (2 * w / ((w * dt + 2) * dt)) * (end_capture w dt p v a - r))%R.
Proof.
  intros. assert (0 < w * dt)%R by (apply Rmult_lt_0_compat; assumption). unfold end_capture. field. repeat split; lra.
Qed.
Lemma capture_low w dt p v a r : (0 < w -> 0 < dt -> (2 * w / ((w * dt + 2) * dt)) * (r - p - v * (dt + 1 / w)) <= a <-> r <= end_capture w dt p v a)%R.
Proof.
  intros Hw Hd. assert (G := capture_gap w dt p v a r Hw Hd). assert (K := ka_pos w dt Hw Hd). split; intros H.
  - apply Rnot_lt_le. intros C. assert (0 < (2 * w / ((w * dt + 2) * dt)) * (r - end_capture w dt p v a))%R by (apply Rmult_lt_0_compat; lra). lra.
  - assert (0 <= (2 * w / ((w * dt + 2) * dt)) * (end_capture w dt p v a - r))%R by (apply Rmult_le_pos; lra). lra.
Qed.
Lemma capture_up w dt p v a r : (0 < w -> 0 < dt -> a <= (2 * w / ((w * dt + 2) * dt)) * (r - p - v * (dt + 1 / w)) <-> end_capture w dt p v a <= r)%R.
Proof.
  intros Hw Hd. assert (G := capture_gap w dt p v a r Hw Hd). assert (K := ka_pos w dt Hw Hd). split; intros H.
  - apply Rnot_lt_le. intros C. assert (0 < (2 * w / ((w * dt + 2) * dt)) * (end_capture w dt p v a - r))%R by (apply Rmult_lt_0_compat; lra). lra.
  - assert (0 <= (2 * w / ((w * dt + 2) * dt)) * (r - end_capture w dt p v a))%R by (apply Rmult_le_pos; lra). lra.
Qed.
Theorem cap_meaning name nv dt g s (d : cdata Rnum) : cap_made name nv dt g s -> (0 < g)%R -> (0 < dt)%R -> (0 < g_p d 2%nat)%R ->
  exists s', cap_stepR s (VCompute d) = Ret s' tt /\ forall dv,
    (sat (v_c s') dv <-> forall i, i < 2 -> (v_min s i + v_mar s i <= end_capture (frequency g (g_p d 2%nat)) dt (g_p d i) (g_v d i) (com_accel nv d dv i) <= v_max s i - v_mar s i)%R).
Proof.
  intros M Hg Hd Hz. destruct (cap_inv _ _ _ _ _ M) as (I1 & I2 & I3 & I4 & I5 & I6 & _). assert (Hw := frequency_pos g (g_p d 2%nat) Hg Hz).
  cbn [cap_step]. unfold cap_compute, cset_lb, cset_ub. rewrite I4. cbn [obind c_kind c_mat c_name c_vec c_lb c_ub]. rewrite I5, I6, I1, !Nat.eqb_refl. cbn [andb guard obind].
  eexists. split; [reflexivity|]. intros dv. unfold sat, lhs. cbn [v_c cset_mat c_kind c_lb c_ub c_mat vlen vget mcols mget]. rewrite I2, I3.
  assert (Q : Q2R 2 = 2%R) by (unfold Q2R; cbn; lra).
  assert (X : forall i, i < 2 -> forall A, ((2 * frequency g (g_p d 2%nat) / ((frequency g (g_p d 2%nat) * dt + 2) * dt)) * (A - g_p d i - g_v d i * (dt + 1 / frequency g (g_p d 2%nat))) - g_a d i <= rsum nv (fun j => g_J d i j * dv j) <->
     (2 * frequency g (g_p d 2%nat) / ((frequency g (g_p d 2%nat) * dt + 2) * dt)) * (A - g_p d i - g_v d i * (dt + 1 / frequency g (g_p d 2%nat))) <= com_accel nv d dv i)%R) by (intros; unfold com_accel; lra).
  assert (Y : forall i, i < 2 -> forall A, (rsum nv (fun j => g_J d i j * dv j) <= (2 * frequency g (g_p d 2%nat) / ((frequency g (g_p d 2%nat) * dt + 2) * dt)) * (A - g_p d i - g_v d i * (dt + 1 / frequency g (g_p d 2%nat))) - g_a d i <->
     com_accel nv d dv i <= (2 * frequency g (g_p d 2%nat) / ((frequency g (g_p d 2%nat) * dt + 2) * dt)) * (A - g_p d i - g_v d i * (dt + 1 / frequency g (g_p d 2%nat))))%R) by (intros; unfold com_accel; lra).
  cbn [Rnum car nadd nsub nmul ndiv nofQ n1] in *. rewrite Q. fold (frequency g (g_p d 2%nat)).
  split; intros H i Hi; specialize (H i Hi); destruct H as [H1 H2].
  - rewrite (X i Hi), capture_low in H1 by assumption. rewrite (Y i Hi), capture_up in H2 by assumption. split; assumption.
  - rewrite <- capture_low, <- (X i Hi) in H1 by assumption. rewrite <- capture_up, <- (Y i Hi) in H2 by assumption. split; assumption.
Qed.
(** Setters. *)
Theorem cap_limits (s s' : capt Rnum) a b : cap_stepR s (VLimX a b) = Ret s' tt -> v_min s' 0 = a /\ v_max s' 0 = b /\ v_min s' 1 = v_min s 1 /\ v_max s' 1 = v_max s 1 /\ v_mar s' = v_mar s.
Proof. cbn [cap_step]. destruct (nleb a b); [|discriminate]. intros E. injection E as <-. cbn. auto. Qed.
Theorem cap_limits_y (s s' : capt Rnum) a b : cap_stepR s (VLimY a b) = Ret s' tt -> v_min s' 1 = a /\ v_max s' 1 = b /\ v_min s' 0 = v_min s 0 /\ v_max s' 0 = v_max s 0 /\ v_mar s' = v_mar s.
Proof. cbn [cap_step]. destruct (nleb a b); [|discriminate]. intros E. injection E as <-. cbn. auto. Qed.
Theorem cap_rejects (s : capt Rnum) (a b : R) : (b < a)%R -> cap_stepR s (@VLimX Rnum a b) = Exc s /\ cap_stepR s (@VLimY Rnum a b) = Exc s.
Proof. intros H. cbn [cap_step]. assert (E : @nleb Rnum a b = false) by (apply Rleb_false; exact H). rewrite E. auto. Qed.
(** With margins that are not negative the capture point is within the limits. *)
Theorem cap_inside name nv dt g s (d : cdata Rnum) s' : cap_made name nv dt g s -> (0 < g)%R -> (0 < dt)%R -> (0 < g_p d 2%nat)%R -> (forall i, i < 2 -> (0 <= v_mar s i)%R) ->
  cap_stepR s (VCompute d) = Ret s' tt -> forall dv, sat (v_c s') dv ->
    forall i, i < 2 -> (v_min s i <= end_capture (frequency g (g_p d 2%nat)) dt (g_p d i) (g_v d i) (com_accel nv d dv i) <= v_max s i)%R.
Proof.
  intros M Hg Hd Hz Hm E dv H i Hi. destruct (cap_meaning name nv dt g s d M Hg Hd Hz) as (s2 & E2 & X). rewrite E in E2. injection E2 as <-. rewrite (X dv) in H. specialize (H i Hi). specialize (Hm i Hi). lra.
Qed.
(** Margins wider than the support: no acceleration is accepted. *)
Theorem cap_infeasible name nv dt g s (d : cdata Rnum) s' i : cap_made name nv dt g s -> (0 < g)%R -> (0 < dt)%R -> (0 < g_p d 2%nat)%R -> i < 2 -> (v_max s i - v_min s i < 2 * v_mar s i)%R ->
  cap_stepR s (VCompute d) = Ret s' tt -> forall dv, ~ sat (v_c s') dv.
Proof.
  intros M Hg Hd Hz Hi Hm E dv H. destruct (cap_meaning name nv dt g s d M Hg Hd Hz) as (s2 & E2 & X). rewrite E in E2. injection E2 as <-. rewrite (X dv) in H. specialize (H i Hi). lra.
Qed.
Theorem cap_margin_free (s : capt Rnum) x y : exists s', cap_stepR s (VMargin x y) = Ret s' tt /\ v_mar s' 0 = x /\ v_mar s' 1 = y /\ v_min s' = v_min s /\ v_max s' = v_max s.
Proof. eexists. split; [reflexivity|]. cbn. auto. Qed.
(** getAcceleration subtracts a 3-vector from a 2-vector. *)
Theorem cap_acc_undef name nv dt g s dv : cap_made name nv dt g s -> cap_acc s dv = None.
Proof.
  intros M. destruct (cap_inv _ _ _ _ _ M) as (_ & _ & _ & _ & I5 & _). unfold cap_acc, mvec. destruct (mcols (c_mat (v_c s)) =? vlen dv); [|reflexivity]. cbn [obind]. unfold vsub. cbn [vlen]. rewrite I5. reflexivity.
Qed.

(** * Contact force *)
Section G.
Context {K : num}.
Definition cf_made (name cname : string) (dt : K) (s : cft K) : Prop := reach cf_step (fun _ _ => True) (cf_new name cname dt) s.
Definition sized6 (s : cft K) : Prop := vlen (r_kp s) = 6 /\ vlen (r_kd s) = 6 /\ vlen (r_ki s) = 6 /\ vlen (r_val s) = 6 /\ vlen (r_der s) = 6 /\ vlen (r_ev s) = 6 /\ vlen (r_ed s) = 6.
Lemma vadd_def (u v : vec K) : vlen u = vlen v -> vadd u v = Some (mkVec (vlen u) (fun i => (vget u i + vget v i)%num)).
Proof. intros H. unfold vadd. rewrite H, Nat.eqb_refl. reflexivity. Qed.
Lemma vsub_def6 (u v : vec K) : vlen u = vlen v -> vsub u v = Some (mkVec (vlen u) (fun i => (vget u i - vget v i)%num)).
Proof. intros H. unfold vsub. rewrite H, Nat.eqb_refl. reflexivity. Qed.
Lemma cwise_def (u v : vec K) : vlen u = vlen v -> cwise u v = Some (mkVec (vlen u) (fun i => (vget u i * vget v i)%num)).
Proof. intros H. unfold cwise. rewrite H, Nat.eqb_refl. reflexivity. Qed.
Lemma vadd_inv (u v w : vec K) : vadd u v = Some w -> vlen u = vlen v /\ vlen w = vlen u.
Proof. unfold vadd. destruct (vlen u =? vlen v) eqn:E; [|discriminate]. intros X. injection X as <-. apply Nat.eqb_eq in E. auto. Qed.
Lemma cwise_inv (u v w : vec K) : cwise u v = Some w -> vlen u = vlen v /\ vlen w = vlen u.
Proof. unfold cwise. destruct (vlen u =? vlen v) eqn:E; [|discriminate]. intros X. injection X as <-. apply Nat.eqb_eq in E. auto. Qed.
(** What compute does when it is defined. *)
Definition cf_target (s : cft K) (i : nat) : K := (vget (r_val s) i + vget (r_kp s) i * (vget (r_val s) i - vget (r_ev s) i) + vget (r_kd s) i * (vget (r_der s) i - vget (r_ed s) i) + vget (r_ki s) i * vget (r_int s) i)%num.
Definition cf_next (s : cft K) (i : nat) : K := (vget (r_int s) i + (vget (r_val s) i - vget (r_ev s) i - r_leak s * vget (r_int s) i) * r_dt s)%num.
Lemma cf_compute_def (s : cft K) B : vlen (r_int s) = 6 -> c_kind (r_c s) = CEq -> sized6 s ->
  exists s', cf_compute s B = Some s' /\ vlen (r_int s') = 6 /\ (forall i, vget (r_int s') i = cf_next s i) /\ c_kind (r_c s') = CEq /\ c_mat (r_c s') = B /\
    vlen (c_vec (r_c s')) = 6 /\ (forall i, vget (c_vec (r_c s')) i = cf_target s i) /\
    r_name s' = r_name s /\ r_kp s' = r_kp s /\ r_kd s' = r_kd s /\ r_ki s' = r_ki s /\ r_val s' = r_val s /\ r_der s' = r_der s /\ r_ev s' = r_ev s /\ r_ed s' = r_ed s /\ r_dt s' = r_dt s /\ r_leak s' = r_leak s.
Proof.
  intros HI HK (H1 & H2 & H3 & H4 & H5 & H6 & H7). unfold cf_compute.
  rewrite vsub_def6 by congruence. cbn [obind].
  rewrite cwise_def by (cbn; congruence). cbn [obind].
  rewrite vadd_def by (cbn; congruence). cbn [obind].
  rewrite vsub_def6 by congruence. cbn [obind].
  rewrite cwise_def by (cbn; congruence). cbn [obind].
  rewrite vadd_def by (cbn; congruence). cbn [obind].
  rewrite cwise_def by (cbn; congruence). cbn [obind].
  rewrite vadd_def by (cbn; congruence). cbn [obind].
  unfold cset_vec. cbn [cset_mat c_kind]. rewrite HK. cbn [obind].
  rewrite vsub_def6 by (cbn; congruence). cbn [obind].
  rewrite vadd_def by (cbn; congruence). cbn [obind]. eexists. split; [reflexivity|].
  cbn [r_int r_c r_name r_kp r_kd r_ki r_val r_der r_ev r_ed r_dt r_leak c_kind c_mat c_vec vlen vget]. repeat (split; [first [assumption|reflexivity]|]). reflexivity.
Qed.
Lemma cf_compute_sizes (s s' : cft K) B : vlen (r_int s) = 6 -> cf_compute s B = Some s' -> sized6 s.
Proof.
  intros HI E. unfold cf_compute in E.
  destruct (vsub (r_val s) (r_ev s)) as [e|] eqn:E1; [|discriminate]. cbn [obind] in E.
  destruct (cwise (r_kp s) e) as [a1|] eqn:E2; [|discriminate]. cbn [obind] in E.
  destruct (vadd (r_val s) a1) as [t1|] eqn:E3; [|discriminate]. cbn [obind] in E.
  destruct (vsub (r_der s) (r_ed s)) as [de|] eqn:E4; [|discriminate]. cbn [obind] in E.
  destruct (cwise (r_kd s) de) as [a2|] eqn:E5; [|discriminate]. cbn [obind] in E.
  destruct (vadd t1 a2) as [t2|] eqn:E6; [|discriminate]. cbn [obind] in E.
  destruct (cwise (r_ki s) (r_int s)) as [a3|] eqn:E7; [|discriminate]. cbn [obind] in E.
  destruct (vadd t2 a3) as [f|] eqn:E8; [|discriminate].
  apply vsub_some in E1 as (? & ? & _). apply cwise_inv in E2 as (? & ?). apply vadd_inv in E3 as (? & ?). apply vsub_some in E4 as (? & ? & _).
  apply cwise_inv in E5 as (? & ?). apply vadd_inv in E6 as (? & ?). apply cwise_inv in E7 as (? & ?). apply vadd_inv in E8 as (? & ?). unfold sized6. repeat split; congruence.
Qed.
Lemma cf_inv name cname dt s : cf_made name cname dt s -> vlen (r_int s) = 6 /\ c_kind (r_c s) = CEq /\ r_dt s = dt.
Proof.
  unfold cf_made. apply (reach_inv _ _ (fun s => vlen (r_int s) = 6 /\ c_kind (r_c s) = CEq /\ r_dt s = dt)); [cbn; auto|]. clear. intros s o s' (I1 & I2 & I3) _ E.
  assert (C : forall B, after (match cf_compute s B with Some s' => Ret s' tt | None => Undef end) = Some s' -> vlen (r_int s') = 6 /\ c_kind (r_c s') = CEq /\ r_dt s' = dt).
  { intros B X. destruct (cf_compute s B) as [s2|] eqn:Y; [|discriminate]. cbn in X. injection X as <-.
    destruct (cf_compute_def s B I1 I2 (cf_compute_sizes s s2 B I1 Y)) as (s3 & Z & A1 & _ & A2 & _ & _ & _ & _ & _ & _ & _ & _ & _ & _ & _ & A3 & _). rewrite Y in Z. injection Z as <-. repeat split; congruence. }
  destruct o; cbn [cf_step] in E; try (destruct (_ =? 6)); try (cbn in E; injection E as <-; cbn; auto; fail); [apply (C B E)|].
  destruct (_ && _); [apply (C B E)|]. cbn in E. injection E as <-. auto.
Qed.
(** compute is defined exactly when the three gains have been set and the samples have six
    entries. *)
Theorem cf_defined name cname dt s B : cf_made name cname dt s -> (cf_step s (RCompute B) <> Undef <-> sized6 s).
Proof.
  intros M. destruct (cf_inv _ _ _ _ M) as (I1 & I2 & _). cbn [cf_step]. split; intros H.
  - destruct (cf_compute s B) as [s'|] eqn:E; [apply (cf_compute_sizes s s' B I1 E)|contradiction H; reflexivity].
  - destruct (cf_compute_def s B I1 I2 H) as (s' & E & _). rewrite E. discriminate.
Qed.
Theorem cf_fresh name cname dt B : cf_step (@cf_new K name cname dt) (RCompute B) = Undef.
Proof. reflexivity. Qed.
(** The constraint after compute. *)
Theorem cf_shape name cname dt s B s' : cf_made name cname dt s -> cf_step s (RCompute B) = Ret s' tt ->
  mrows (c_mat (r_c s')) = mrows B /\ vlen (c_vec (r_c s')) = 6 /\ (cwf (mcols B) (r_c s') <-> mrows B = 6).
Proof.
  intros M E. destruct (cf_inv _ _ _ _ M) as (I1 & I2 & _). cbn [cf_step] in E. destruct (cf_compute s B) as [s2|] eqn:X; [|discriminate]. injection E as <-.
  destruct (cf_compute_def s B I1 I2 (cf_compute_sizes s s2 B I1 X)) as (s3 & Y & _ & _ & A1 & A2 & A3 & _). rewrite X in Y. injection Y as <-. unfold cwf. rewrite A1, A2, A3. split; [reflexivity|]. split; [reflexivity|]. intuition congruence.
Qed.
(** The variant with the list of contacts. *)
Theorem cf_missing (s : cft K) names B : r_name s = "" \/ ~ In (r_name s) names -> cf_step s (RComputeIn names B) = Ret s tt.
Proof.
  intros [H|H]; cbn [cf_step]; [rewrite H; reflexivity|]. destruct (existsb (String.eqb (r_name s)) names) eqn:E; [|rewrite andb_false_r; reflexivity].
  apply existsb_exists in E as (x & Hx & Ex). apply String.eqb_eq in Ex. subst x. contradiction.
Qed.
Theorem cf_present (s : cft K) names B : r_name s <> "" -> In (r_name s) names -> cf_step s (RComputeIn names B) = cf_step s (RCompute B).
Proof.
  intros H1 H2. cbn [cf_step]. replace (existsb (String.eqb (r_name s)) names) with true by (symmetry; apply existsb_exists; exists (r_name s); split; [exact H2|apply String.eqb_refl]).
  destruct (String.eqb_spec (r_name s) ""); [contradiction|]. reflexivity.
Qed.
End G.
Arguments sized6 {K} s.
Notation cf_stepR := (@cf_step Rnum).
(** The task asks B y to be the reference corrected by the force error. *)
Theorem cf_meaning name cname (dt : R) (s : cft Rnum) (B : mat Rnum) : @cf_made Rnum name cname dt s -> sized6 s -> exists s', cf_stepR s (RCompute B) = Ret s' tt /\
  (forall y, sat (r_c s') y <-> forall i, i < 6 -> rsum (mcols B) (fun j => mget B i j * y j)%R =
     (vget (r_val s) i + vget (r_kp s) i * (vget (r_val s) i - vget (r_ev s) i) + vget (r_kd s) i * (vget (r_der s) i - vget (r_ed s) i) + vget (r_ki s) i * vget (r_int s) i)%R) /\
  (forall i, vget (r_int s') i = (vget (r_int s) i + (vget (r_val s) i - vget (r_ev s) i - r_leak s * vget (r_int s) i) * dt)%R).
Proof.
  intros M H. destruct (cf_inv _ _ _ _ M) as (I1 & I2 & I3). destruct (cf_compute_def s B I1 I2 H) as (s' & E & _ & N & A1 & A2 & A3 & T & _). exists s'. cbn [cf_step]. rewrite E. split; [reflexivity|]. split.
  - intros y. unfold sat, lhs. rewrite A1, A2, A3. split; intros X i Hi; specialize (X i Hi); [rewrite T in X; exact X|rewrite T; exact X].
  - intros i. rewrite N. unfold cf_next. rewrite I3. reflexivity.
Qed.
(** ** The leaky integral *)
Definition force_err (s : cft Rnum) (i : nat) : R := (vget (r_val s) i - vget (r_ev s) i)%R.
(** Every compute happens with force error at most E and leak rate l0 at least, leak dt <= 1. *)
Definition calm (E l0 dt : R) (s : cft Rnum) (o : cfop Rnum) : Prop :=
  match o with
  | RCompute _ | RComputeIn _ _ => (l0 <= r_leak s)%R /\ (r_leak s * dt <= 1)%R /\ forall i, i < 6 -> (Rabs (force_err s i) <= E)%R
  | _ => True
  end.
Lemma leaky_bound E l0 M dt leak e x : (0 < l0 -> 0 <= dt -> l0 <= leak -> leak * dt <= 1 -> E = l0 * M -> 0 <= M -> Rabs e <= E -> Rabs x <= M -> Rabs (x + (e - leak * x) * dt) <= M)%R.
Proof.
  intros Hl Hd H1 H2 HE HM He Hx. replace (x + (e - leak * x) * dt)%R with ((1 - leak * dt) * x + dt * e)%R by ring.
  eapply Rle_trans; [apply Rabs_triang|]. rewrite !Rabs_mult, (Rabs_right (1 - leak * dt)) by lra. rewrite (Rabs_right dt) by lra.
  assert (A : ((1 - leak * dt) * Rabs x <= (1 - leak * dt) * M)%R) by (apply Rmult_le_compat_l; lra).
  assert (B : (dt * Rabs e <= dt * E)%R) by (apply Rmult_le_compat_l; lra).
  assert (C : (dt * E <= dt * (leak * M))%R) by (apply Rmult_le_compat_l; [lra|]; rewrite HE; apply Rmult_le_compat_r; lra). lra.
Qed.
Theorem cf_bounded name cname (dt E l0 : R) (s : cft Rnum) : (0 < l0)%R -> (0 <= dt)%R -> (0 <= E)%R ->
  reach cf_stepR (calm E l0 dt) (@cf_new Rnum name cname dt) s -> forall i, i < 6 -> (Rabs (vget (r_int s) i) <= E / l0)%R.
Proof.
  intros Hl Hd HE R. assert (HM : (0 <= E / l0)%R) by (apply Rle_mult_inv_pos; assumption). assert (HEM : E = (l0 * (E / l0))%R) by (field; lra).
  enough (X : vlen (r_int s) = 6 /\ c_kind (r_c s) = CEq /\ r_dt s = dt /\ forall i, i < 6 -> (Rabs (vget (r_int s) i) <= E / l0)%R) by apply X.
  revert R. apply (reach_inv _ _ (fun s : cft Rnum => vlen (r_int s) = 6 /\ c_kind (r_c s) = CEq /\ r_dt s = dt /\ forall i, i < 6 -> (Rabs (vget (r_int s) i) <= E / l0)%R)).
  - cbn. repeat split; auto. intros. rewrite Rabs_R0. exact HM.
  - clear s. intros s o s' (I1 & I2 & I3 & I4) P X.
    assert (C : forall B, calm E l0 dt s (RCompute B) -> after (match cf_compute s B with Some s' => Ret s' tt | None => Undef end) = Some s' ->
       vlen (r_int s') = 6 /\ c_kind (r_c s') = CEq /\ r_dt s' = dt /\ forall i, i < 6 -> (Rabs (vget (r_int s') i) <= E / l0)%R).
    { intros B (P1 & P2 & P3) Y. destruct (cf_compute s B) as [s2|] eqn:Z; [|discriminate]. cbn in Y. injection Y as <-.
      destruct (cf_compute_def s B I1 I2 (cf_compute_sizes s s2 B I1 Z)) as (s3 & W & A1 & N & A2 & _ & _ & _ & _ & _ & _ & _ & _ & _ & _ & _ & A3 & _). rewrite Z in W. injection W as <-.
      split; [exact A1|]. split; [exact A2|]. split; [congruence|]. intros i Hi. rewrite N. unfold cf_next. rewrite I3.
      exact (leaky_bound E l0 (E / l0) dt (r_leak s) (force_err s i) (vget (r_int s) i) Hl Hd P1 P2 HEM HM (P3 i Hi) (I4 i Hi)). }
    destruct o; cbn [cf_step] in X; try (destruct (_ =? 6)); try (cbn in X; injection X as <-; cbn; auto; fail); [apply (C B P X)|].
    destruct (_ && _); [apply (C B P X)|]. cbn in X. injection X as <-. auto.
Qed.
(** Computes with nothing else changed. *)
Fixpoint computes (k : nat) (B : mat Rnum) (s : cft Rnum) : option (cft Rnum) :=
  match k with O => Some s | S k => do s' <- computes k B s; after (cf_stepR s' (RCompute B)) end.
Lemma computes_run name cname (dt : R) (s : cft Rnum) B k : @cf_made Rnum name cname dt s -> sized6 s -> exists s', computes k B s = Some s' /\ @cf_made Rnum name cname dt s' /\ sized6 s' /\
  r_val s' = r_val s /\ r_ev s' = r_ev s /\ r_leak s' = r_leak s /\ forall i, vget (r_int s') i = Nat.iter k (fun x => x + (force_err s i - r_leak s * x) * dt)%R (vget (r_int s) i).
Proof.
  intros M H. induction k as [|k (s1 & E & M1 & H1 & A1 & A2 & A3 & N1)]; [exists s; cbn; auto 10|]. cbn [computes]. rewrite E. cbn [obind].
  destruct (cf_inv _ _ _ _ M1) as (I1 & I2 & I3). destruct (cf_compute_def s1 B I1 I2 H1) as (s2 & E2 & _ & N & _ & _ & _ & _ & _ & B1 & B2 & B3 & B4 & B5 & B6 & B7 & _ & B8).
  assert (X : after (cf_stepR s1 (RCompute B)) = Some s2) by (cbn [cf_step]; rewrite E2; reflexivity). exists s2. split; [exact X|].
  split; [exact (reach_step _ _ _ s1 (RCompute B) s2 M1 I X)|]. split; [unfold sized6 in *; rewrite B1, B2, B3, B4, B5, B6, B7; exact H1|].
  split; [congruence|]. split; [congruence|]. split; [congruence|]. intros i. rewrite N. unfold cf_next. rewrite I3, A1, A2, A3, N1. reflexivity.
Qed.
Lemma iter_S {A} (f : A -> A) k x : Nat.iter (S k) f x = f (Nat.iter k f x).
Proof. reflexivity. Qed.
(** Closed form with a constant error, from a zero integral. *)
Theorem cf_closed name cname (dt : R) (s : cft Rnum) B k : @cf_made Rnum name cname dt s -> sized6 s -> r_leak s <> 0%R -> exists s', computes k B s = Some s' /\
  forall i, vget (r_int s) i = 0%R -> vget (r_int s') i = (force_err s i / r_leak s * (1 - (1 - r_leak s * dt) ^ k))%R.
Proof.
  intros M H HL. destruct (computes_run name cname dt s B k M H) as (s' & E & _ & _ & _ & _ & _ & N). exists s'. split; [exact E|]. intros i H0. rewrite N, H0. clear - HL.
  induction k as [|k IH]; [cbn; change (@eq R 0%R (force_err s i / r_leak s * (1 - 1))%R); ring|]. rewrite iter_S, IH. cbn [pow]. match goal with |- @eq _ ?a ?b => change (@eq R a b) end. field. exact HL.
Qed.
(** Without leak the integral grows without bound. *)
Theorem cf_no_leak name cname (dt : R) (s : cft Rnum) B k : @cf_made Rnum name cname dt s -> sized6 s -> r_leak s = 0%R -> exists s', computes k B s = Some s' /\
  forall i, vget (r_int s) i = 0%R -> vget (r_int s') i = (INR k * (force_err s i * dt))%R.
Proof.
  intros M H HL. destruct (computes_run name cname dt s B k M H) as (s' & E & _ & _ & _ & _ & _ & N). exists s'. split; [exact E|]. intros i H0. rewrite N, H0, HL. clear.
  induction k as [|k IH]; [cbn; match goal with |- @eq _ ?a ?b => change (@eq R a b) end; ring|]. rewrite iter_S, IH, S_INR. match goal with |- @eq _ ?a ?b => change (@eq R a b) end. ring.
Qed.
(** ** Calling compute twice *)
Theorem cf_twice name cname (dt : R) (s s1 s2 : cft Rnum) B : @cf_made Rnum name cname dt s -> cf_stepR s (RCompute B) = Ret s1 tt -> cf_stepR s1 (RCompute B) = Ret s2 tt ->
  forall i, (vget (c_vec (r_c s2)) i - vget (c_vec (r_c s1)) i = vget (r_ki s) i * ((force_err s i - r_leak s * vget (r_int s) i) * dt))%R.
Proof.
  intros M E1 E2 i. destruct (cf_inv _ _ _ _ M) as (I1 & I2 & I3). cbn [cf_step] in E1, E2.
  destruct (cf_compute s B) as [x|] eqn:X; [|discriminate]. injection E1 as <-. destruct (cf_compute x B) as [z|] eqn:Z; [|discriminate]. injection E2 as <-.
  destruct (cf_compute_def s B I1 I2 (cf_compute_sizes s x B I1 X)) as (x' & X' & J1 & N & J2 & _ & _ & T & _ & B1 & B2 & B3 & B4 & B5 & B6 & B7 & _ & _). rewrite X in X'. injection X' as <-.
  destruct (cf_compute_def x B J1 J2 (cf_compute_sizes x z B J1 Z)) as (z' & Z' & _ & _ & _ & _ & _ & T' & _). rewrite Z in Z'. injection Z' as <-.
  rewrite T, T'. unfold cf_target. rewrite N, B1, B2, B3, B4, B5, B6, B7. unfold cf_next, force_err. rewrite I3. cbn [Rnum car nadd nsub nmul]. ring.
Qed.
(** A task ready to run. *)
Definition c6 (x : R) : vec Rnum := @mkVec Rnum 6 (fun _ => x).
Definition zero6 : vec Rnum := c6 0.
Lemma cf_ready name cname (dt kp kd ki leak : R) (f : vec Rnum) : vlen f = 6 -> exists s, @cf_made Rnum name cname dt s /\ sized6 s /\ r_kp s = c6 kp /\ r_kd s = c6 kd /\ r_ki s = c6 ki /\
  r_leak s = leak /\ r_val s = f /\ (forall i, vget (r_ev s) i = 0%R) /\ (forall i, vget (r_int s) i = 0%R).
Proof.
  intros Hf. destruct (run (@cf_step Rnum) (@cf_new Rnum name cname dt) [RKp (c6 kp); RKd (c6 kd); RKi (c6 ki); @RLeak Rnum leak; RRef f zero6]) as [s|] eqn:E; [|discriminate].
  exists s. split; [exact (run_reach _ _ _ _ E)|]. cbn in E. injection E as <-. unfold sized6. cbn. auto 20.
Qed.
Theorem cf_twice_refuted : forall name cname B, exists (s s1 s2 : cft Rnum), @cf_made Rnum name cname 1%R s /\ cf_stepR s (RCompute B) = Ret s1 tt /\ cf_stepR s1 (RCompute B) = Ret s2 tt /\
  vget (c_vec (r_c s1)) 0 <> vget (c_vec (r_c s2)) 0.
Proof.
  intros name cname B. destruct (cf_ready name cname 1 0 0 1 (1/20) (c6 1) eq_refl) as (s & M & H & _ & _ & K1 & L & V & Z & I0).
  destruct (computes_run name cname 1 s B 1 M H) as (s1 & E1 & M1 & H1 & _). destruct (computes_run name cname 1 s1 B 1 M1 H1) as (s2 & E2 & _).
  cbn [computes obind] in E1, E2. assert (X1 : cf_stepR s (RCompute B) = Ret s1 tt). { cbn [cf_step] in *. destruct (cf_compute s B); [|discriminate]. cbn in E1. congruence. }
  assert (X2 : cf_stepR s1 (RCompute B) = Ret s2 tt). { cbn [cf_step] in *. destruct (cf_compute s1 B); [|discriminate]. cbn in E2. congruence. }
  exists s, s1, s2. split; [exact M|]. split; [exact X1|]. split; [exact X2|]. intros C. assert (T := cf_twice name cname 1 s s1 s2 B M X1 X2 0). rewrite C, K1, L, I0 in T. unfold force_err in T. rewrite V, Z in T. cbn in T. lra.
Qed.
