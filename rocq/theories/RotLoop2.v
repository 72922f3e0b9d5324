(** Proportional-derivative control of a rotation: the tracking error in closed loop. Pure
    mathematics, used by OrientLoop.v. *)
From Coq Require Import Reals Lra Lia.
From Verif Require Import LinearLoop RotLoop.
Open Scope R_scope.

Ltac three i := destruct i as [|[|[|i]]]; [| | |lia].
(** The columns of Q turn with angular velocity w. *)
Definition turning (Q : R -> nat -> nat -> R) (w : R -> nat -> R) : Prop := forall t, 0 <= t -> forall i j, (i < 3)%nat -> (j < 3)%nat ->
  derivable_pt_lim (fun u => Q u i j) t (cross3 (w t) (fun k => Q t k j) i).
Definition rotation3 (Q : nat -> nat -> R) : Prop := rows3 Q /\ rows3 (fun i j => Q j i) /\ det3 Q = 1.
(** Angle from one rotation to another. *)
Definition angle3 (Q Qd : nat -> nat -> R) : R := acos ((trace3 (tr_mul Q Qd) - 1) / 2).

Lemma rotation_mul A B : rotation3 A -> rotation3 B -> rotation3 (mul_tr A B).
Proof.
  intros (A1 & A2 & A3) (B1 & B2 & B3). split; [apply mul_tr_rows; assumption|]. split; [|rewrite det_mul_tr, A3, B3; ring].
  assert (X := mul_tr_rows B A B1 A2).
  assert (E : forall i j, mul_tr B A i j = mul_tr A B j i) by (intros i j; unfold mul_tr, dot3; ring).
  unfold rows3, dot3 in X |- *. rewrite !E in X. exact X.
Qed.
Lemma rotation_cos A : rotation3 A -> -1 <= (trace3 A - 1) / 2 <= 1 /\ dot3 (vee3 A) (vee3 A) = 1 - ((trace3 A - 1) / 2) * ((trace3 A - 1) / 2).
Proof.
  intros (A1 & A2 & A3). assert (S := sine_square A A1 A3). split; [|exact S].
  assert (0 <= dot3 (vee3 A) (vee3 A)).
  { unfold dot3. assert (X := Rle_0_sqr (vee3 A 0%nat)). assert (Y := Rle_0_sqr (vee3 A 1%nat)). assert (Z := Rle_0_sqr (vee3 A 2%nat)). unfold Rsqr in *. lra. }
  set (c := (trace3 A - 1) / 2) in *. nra.
Qed.
Lemma sq_pos x : 0 <= x * x.
Proof. apply Rle_0_sqr. Qed.
Lemma dot_pos x : 0 <= dot3 x x.
Proof. unfold dot3. assert (A := sq_pos (x 0%nat)). assert (B := sq_pos (x 1%nat)). assert (C := sq_pos (x 2%nat)). lra. Qed.
(** Young's inequality. *)
Lemma young a x y : 0 < a -> dot3 x y <= a * dot3 x x / 2 + dot3 y y / (2 * a).
Proof.
  intros H. assert (P := dot_pos (fun i => a * x i - y i)).
  assert (E : dot3 (fun i => a * x i - y i) (fun i => a * x i - y i) = a * (a * dot3 x x) - 2 * a * dot3 x y + dot3 y y) by (unfold dot3; ring).
  rewrite E in P. apply Rmult_le_reg_l with (r := 2 * a); [lra|]. replace (2 * a * (a * dot3 x x / 2 + dot3 y y / (2 * a))) with (a * (a * dot3 x x) + dot3 y y) by (field; lra). lra.
Qed.
Lemma cross_norm x y : dot3 (cross3 x y) (cross3 x y) <= dot3 x x * dot3 y y.
Proof.
  assert (E : dot3 (cross3 x y) (cross3 x y) = dot3 x x * dot3 y y - dot3 x y * dot3 x y) by (unfold dot3, cross3; ring).
  rewrite E. assert (P := sq_pos (dot3 x y)). lra.
Qed.

Section Loop.
Variables (kp kd : R) (Q Qd : R -> nat -> nat -> R) (w wd r : R -> nat -> R).
Hypothesis Kp : 0 < kp.
Hypothesis Kd : 0 < kd.
Hypothesis RQ : forall t, 0 <= t -> rotation3 (Q t).
Hypothesis RD : forall t, 0 <= t -> rotation3 (Qd t).
Hypothesis TQ : turning Q w.
Hypothesis TD : turning Qd wd.
(** Velocity error. *)
Definition eta (t : R) : nat -> R := fun i => wd t i - w t i.
Definition theta (t : R) : R := angle3 (Q t) (Qd t).
Let F (t : R) := mul_tr (Qd t) (Q t).
Let s (t : R) := vee3 (F t).
Let c (t : R) := (trace3 (F t) - 1) / 2.
Hypothesis EE : forall t, 0 <= t -> forall i, (i < 3)%nat -> derivable_pt_lim (fun u => eta u i) t (- kp * r t i - kd * eta t i).
Hypothesis PR : forall t, 0 <= t -> theta t < PI -> forall i, (i < 3)%nat -> (theta t = 0 -> r t i = 0) /\ sin (theta t) * r t i = theta t * s t i.

Lemma theta_c t : theta t = acos (c t).
Proof. unfold theta, angle3, c, F. rewrite trace_swap. reflexivity. Qed.
Lemma c_range t : 0 <= t -> -1 <= c t <= 1 /\ dot3 (s t) (s t) = 1 - c t * c t.
Proof. intros Ht. apply rotation_cos. apply rotation_mul; auto. Qed.
Lemma theta_range t : 0 <= t -> 0 <= theta t <= PI /\ cos (theta t) = c t /\ dot3 (s t) (s t) = sin (theta t) * sin (theta t).
Proof.
  intros Ht. destruct (c_range t Ht) as [B S]. rewrite theta_c. split; [apply acos_bound|]. split; [apply cos_acos; exact B|].
  rewrite S. assert (X := sin2_cos2 (acos (c t))). unfold Rsqr in X. rewrite (cos_acos (c t) B) in X. lra.
Qed.
Lemma theta_lt t : 0 <= t -> -1 < c t -> theta t < PI.
Proof.
  intros Ht H. destruct (theta_range t Ht) as ([_ L] & C & _). destruct (Req_dec (theta t) PI) as [E|]; [|lra]. rewrite E, cos_PI in C. lra.
Qed.

Definition DF (t : R) (i j : nat) : R :=
  cross3 (wd t) (fun k => Qd t k 0%nat) i * Q t j 0%nat + Qd t i 0%nat * cross3 (w t) (fun k => Q t k 0%nat) j
  + (cross3 (wd t) (fun k => Qd t k 1%nat) i * Q t j 1%nat + Qd t i 1%nat * cross3 (w t) (fun k => Q t k 1%nat) j)
  + (cross3 (wd t) (fun k => Qd t k 2%nat) i * Q t j 2%nat + Qd t i 2%nat * cross3 (w t) (fun k => Q t k 2%nat) j).
Lemma F_deriv t i j : 0 <= t -> (i < 3)%nat -> (j < 3)%nat -> derivable_pt_lim (fun u => F u i j) t (DF t i j).
Proof.
  intros Ht Hi Hj. unfold F, mul_tr, dot3, DF. apply deriv_plus; [apply deriv_plus|]; apply (deriv_mult (fun u => Qd u i _) (fun u => Q u j _)); (apply TD || apply TQ); auto.
Qed.
Lemma scale_deriv f t l k : derivable_pt_lim f t l -> derivable_pt_lim (fun u => f u / k) t (l / k).
Proof. intros H. eapply deriv_val; [apply (deriv_mult f (fun _ => / k)); [exact H|apply deriv_const]|]. unfold Rdiv. ring. Qed.
Lemma c_deriv t : 0 <= t -> derivable_pt_lim c t (- dot3 (s t) (eta t)).
Proof.
  intros Ht. eapply deriv_val.
  - unfold c, trace3. apply scale_deriv. apply (deriv_minus (fun u => F u 0%nat 0%nat + F u 1%nat 1%nat + F u 2%nat 2%nat) (fun _ => 1)); [|apply deriv_const].
    apply deriv_plus; [apply deriv_plus|]; apply F_deriv; auto.
  - unfold DF, s, F, vee3, mul_tr, dot3, eta, cross3. field.
Qed.
Lemma s_deriv t i : 0 <= t -> (i < 3)%nat -> derivable_pt_lim (fun u => s u i) t (vee3 (DF t) i).
Proof.
  intros Ht Hi. unfold s. three i; unfold vee3; apply scale_deriv, deriv_minus; apply F_deriv; auto.
Qed.
Lemma dot_deriv x y t dx dy : (forall i, (i < 3)%nat -> derivable_pt_lim (fun u => x u i) t (dx i)) -> (forall i, (i < 3)%nat -> derivable_pt_lim (fun u => y u i) t (dy i)) ->
  derivable_pt_lim (fun u => dot3 (x u) (y u)) t (dot3 dx (y t) + dot3 (x t) dy).
Proof.
  intros X Y. unfold dot3. eapply deriv_val; [apply deriv_plus; [apply deriv_plus|]; apply deriv_mult; (apply X || apply Y); auto|]. cbv beta. ring.
Qed.
(** How the axial vector moves along the velocity error. *)
Lemma s_rate t : dot3 (vee3 (DF t)) (eta t) = dot3 (eta t) (cross3 (wd t) (s t)) + (trace3 (F t) * dot3 (eta t) (eta t) - dot3 (eta t) (app3 (F t) (eta t))) / 2.
Proof. unfold DF, s, F, vee3, mul_tr, trace3, app3, dot3, eta, cross3. field. Qed.
Lemma s_rate_le t : 0 <= t -> dot3 (vee3 (DF t)) (eta t) <= dot3 (eta t) (cross3 (wd t) (s t)) + 2 * dot3 (eta t) (eta t).
Proof.
  intros Ht. rewrite s_rate. destruct (c_range t Ht) as [B _]. unfold c in B.
  assert (N := app3_norm (F t) (eta t) (proj1 (proj2 (rotation_mul _ _ (RD t Ht) (RQ t Ht))))).
  assert (P := dot_pos (fun i => app3 (F t) (eta t) i + eta t i)).
  assert (E : dot3 (fun i => app3 (F t) (eta t) i + eta t i) (fun i => app3 (F t) (eta t) i + eta t i) = dot3 (app3 (F t) (eta t)) (app3 (F t) (eta t)) + 2 * dot3 (eta t) (app3 (F t) (eta t)) + dot3 (eta t) (eta t)) by (unfold dot3; ring).
  rewrite E, N in P. assert (P' := dot_pos (eta t)). assert (trace3 (F t) * dot3 (eta t) (eta t) <= 3 * dot3 (eta t) (eta t)) by (apply Rmult_le_compat_r; lra). lra.
Qed.

(** * Energy *)
Definition energy3 (t : R) : R := kp * (theta t * theta t) + dot3 (eta t) (eta t).
Lemma theta_deriv t : 0 <= t -> -1 < c t -> derivable_pt_lim (fun u => theta u * theta u) t (2 * dot3 (r t) (eta t)).
Proof.
  intros Ht H. destruct (c_range t Ht) as [B S]. destruct (theta_range t Ht) as (TB & TC & TS). assert (TL := theta_lt t Ht H).
  apply (deriv_ext (fun u => acos (c u) * acos (c u))); [intros u; rewrite theta_c; reflexivity|].
  assert (Z : forall i, (i < 3)%nat -> c t = 1 -> s t i = 0).
  { intros i Hi E. rewrite E in S. destruct (sum_squares (s t 0%nat) (s t 1%nat) (s t 2%nat)) as (X & Y & W); [unfold dot3 in S; lra|]. three i; assumption. }
  eapply deriv_val.
  - apply (square_angle_deriv c t _ (c_deriv t Ht)); [lra|]. intros E. unfold dot3. rewrite !Z by (exact E || lia). ring.
  - rewrite <- theta_c. assert (X := PR t Ht TL). destruct (Req_dec (theta t) 0) as [E|N].
    + assert (X0 := fun i Hi => proj1 (X i Hi) E). unfold dot3. rewrite (X0 0%nat), (X0 1%nat), (X0 2%nat) by lia. rewrite E. unfold Rdiv. ring.
    + assert (SN : 0 < sin (theta t)) by (apply sin_gt_0; lra).
      assert (RE : forall i, (i < 3)%nat -> r t i = theta t / sin (theta t) * s t i).
      { intros i Hi. apply Rmult_eq_reg_l with (r := sin (theta t)); [|lra]. rewrite (proj2 (X i Hi)). field. lra. }
      unfold dot3. rewrite !RE by lia. unfold Rdiv. ring.
Qed.
Lemma energy_deriv t : 0 <= t -> -1 < c t -> derivable_pt_lim energy3 t (- 2 * kd * dot3 (eta t) (eta t)).
Proof.
  intros Ht H. eapply deriv_val.
  - unfold energy3. apply deriv_plus; [apply (deriv_mult (fun _ => kp)); [apply deriv_const|apply theta_deriv; assumption]|].
    apply dot_deriv; intros i Hi; apply EE; assumption.
  - cbv beta. unfold dot3. ring.
Qed.
Lemma sr_dot t : 0 <= t -> -1 < c t -> dot3 (s t) (r t) = theta t * sin (theta t).
Proof.
  intros Ht H. destruct (theta_range t Ht) as (TB & TC & TS). assert (TL := theta_lt t Ht H). assert (X := PR t Ht TL).
  destruct (Req_dec (theta t) 0) as [E|N].
  - assert (X0 := fun i Hi => proj1 (X i Hi) E). unfold dot3. rewrite (X0 0%nat), (X0 1%nat), (X0 2%nat) by lia. rewrite E. ring.
  - assert (SN : 0 < sin (theta t)) by (apply sin_gt_0; lra). apply Rmult_eq_reg_l with (r := sin (theta t)); [|lra].
    transitivity (s t 0%nat * (sin (theta t) * r t 0%nat) + s t 1%nat * (sin (theta t) * r t 1%nat) + s t 2%nat * (sin (theta t) * r t 2%nat)); [unfold dot3; ring|].
    rewrite (proj2 (X 0%nat ltac:(lia))), (proj2 (X 1%nat ltac:(lia))), (proj2 (X 2%nat ltac:(lia))). transitivity (theta t * dot3 (s t) (s t)); [unfold dot3; ring|]. rewrite TS. ring.
Qed.

(** * The angle stays away from a half turn *)
Variable m : R.
Hypothesis M : 0 <= m < PI.
Hypothesis V0 : energy3 0 <= kp * (m * m).
Lemma angle_of_energy t : 0 <= t -> energy3 t <= kp * (m * m) -> theta t <= m.
Proof.
  intros Ht H. destruct (theta_range t Ht) as ([TB _] & _). assert (P := dot_pos (eta t)). unfold energy3 in H.
  destruct (Rle_dec (theta t) m) as [|N]; [assumption|]. exfalso. assert (m * m < theta t * theta t) by nra. nra.
Qed.
Lemma stays t : 0 <= t -> theta t <= m /\ energy3 t <= energy3 0.
Proof.
  assert (CM : -1 < cos m) by (rewrite <- cos_PI; apply cos_decreasing_1; lra).
  assert (LV : forall u, 0 <= u -> theta u <= m -> cos m <= c u).
  { intros u Hu H. destruct (theta_range u Hu) as (TB & <- & _). apply cos_decr_1; lra. }
  assert (DEC : forall b, -1 < b -> forall u, 0 <= u -> (forall v, 0 <= v <= u -> b <= c v) -> energy3 u <= energy3 0).
  { intros b Hb u Hu H. apply (decreasing_derivative energy3 (fun v => - 2 * kd * dot3 (eta v) (eta v)) 0 u Hu).
    - intros v Hv. apply energy_deriv; [lra|]. specialize (H v Hv). lra.
    - intros v _. assert (P := dot_pos (eta v)). nra. }
  pose (b := (cos m - 1) / 2).
  assert (B : forall u, 0 <= u -> b < c u).
  { apply bootstrap.
    - intros u Hu. apply derivable_continuous_pt. exists (- dot3 (s u) (eta u)). apply c_deriv, Hu.
    - assert (X := LV 0 (Rle_refl 0) (angle_of_energy 0 (Rle_refl 0) V0)). unfold b. lra.
    - intros u Hu H. assert (X := DEC b ltac:(unfold b; lra) u Hu H). assert (Y := LV u Hu (angle_of_energy u Hu ltac:(lra))). unfold b. lra. }
  intros Ht. assert (X : energy3 t <= energy3 0) by (apply (DEC b); [unfold b; lra|exact Ht|intros v Hv; left; apply B; lra]).
  split; [apply angle_of_energy; [exact Ht|lra]|exact X].
Qed.

(** * Exponential decay when the reference turns at a bounded rate *)
Variable O2 : R.
Hypothesis OP : 0 <= O2.
Hypothesis OB : forall t, 0 <= t -> dot3 (wd t) (wd t) <= O2.
Let kap := cos (m / 2) / 2.
Variable e : R.
Hypothesis E0 : 0 < e.
Hypothesis E1 : 2 * e <= 1.
Hypothesis E2 : 2 * e <= kp.
Hypothesis E3 : 2 * e * (2 * kp + (O2 + 1) + kd * kd) <= kd * kp.
Let W (t : R) := energy3 t + 2 * e * dot3 (s t) (eta t).
Definition WD (t : R) : R := - 2 * kd * dot3 (eta t) (eta t) + 2 * e * (dot3 (vee3 (DF t)) (eta t) + dot3 (s t) (fun i => - kp * r t i - kd * eta t i)).
Lemma above t : 0 <= t -> -1 < c t.
Proof.
  intros Ht. destruct (stays t Ht) as [H _]. destruct (theta_range t Ht) as (TB & <- & _). rewrite <- cos_PI. apply cos_decreasing_1; lra.
Qed.
Lemma W_deriv t : 0 <= t -> derivable_pt_lim W t (WD t).
Proof.
  intros Ht. eapply deriv_val.
  - unfold W. apply deriv_plus; [apply energy_deriv; [exact Ht|apply above, Ht]|]. apply (deriv_mult (fun _ => 2 * e)); [apply deriv_const|].
    apply (dot_deriv s eta t (vee3 (DF t)) (fun i => - kp * r t i - kd * eta t i)); intros i Hi; [apply s_deriv|apply EE]; assumption.
  - unfold WD. cbv beta. ring.
Qed.
Lemma s_small t : 0 <= t -> dot3 (s t) (s t) <= theta t * sin (theta t) /\ dot3 (s t) (s t) <= theta t * theta t.
Proof.
  intros Ht. destruct (theta_range t Ht) as (TB & _ & ->). assert (X := sin_up (theta t) (proj1 TB)). assert (Y := sin_ge_0 (theta t) (proj1 TB) (proj2 TB)). nra.
Qed.
Lemma WD_le t : 0 <= t -> WD t <= - kd * dot3 (eta t) (eta t) - e * kp * (kap * (theta t * theta t)).
Proof.
  intros Ht. destruct (theta_range t Ht) as (TB & _ & TS). destruct (stays t Ht) as [TM _]. destruct (s_small t Ht) as [S1 S2].
  assert (X := s_rate_le t Ht). assert (SW := sin_wide m (theta t) ltac:(lra) (proj2 M)). fold kap in SW.
  assert (D : dot3 (s t) (fun i => - kp * r t i - kd * eta t i) = - kp * (theta t * sin (theta t)) - kd * dot3 (s t) (eta t)).
  { rewrite <- sr_dot by (exact Ht || apply above, Ht). unfold dot3. ring. }
  unfold WD. rewrite D. set (N := dot3 (eta t) (eta t)) in *. set (T := theta t * sin (theta t)) in *. set (S := dot3 (s t) (s t)) in *.
  assert (NP : 0 <= N) by apply dot_pos. assert (SP : 0 <= S) by apply dot_pos.
  (* the two cross terms *)
  assert (Y1 : dot3 (eta t) (cross3 (wd t) (s t)) <= (O2 + 1) / kp * N + kp / 4 * S).
  { assert (A : 0 < 2 * (O2 + 1) / kp) by (apply Rdiv_lt_0_compat; lra). assert (Y := young _ (eta t) (cross3 (wd t) (s t)) A). fold N in Y.
    apply Rle_trans with (1 := Y). apply Rplus_le_compat; [right; field; lra|].
    assert (C := cross_norm (wd t) (s t)). fold S in C. assert (C' : dot3 (wd t) (wd t) * S <= (O2 + 1) * S) by (apply Rmult_le_compat_r; [exact SP|]; specialize (OB t Ht); lra).
    apply Rmult_le_reg_l with (r := 2 * (2 * (O2 + 1) / kp)); [lra|].
    replace (2 * (2 * (O2 + 1) / kp) * (dot3 (cross3 (wd t) (s t)) (cross3 (wd t) (s t)) / (2 * (2 * (O2 + 1) / kp)))) with (dot3 (cross3 (wd t) (s t)) (cross3 (wd t) (s t))) by (field; lra).
    replace (2 * (2 * (O2 + 1) / kp) * (kp / 4 * S)) with ((O2 + 1) * S) by (field; lra). lra. }
  assert (Y2 : - (kd * dot3 (s t) (eta t)) <= kd * kd / kp * N + kp / 4 * S).
  { assert (A : 0 < 2 * (kd * kd) / kp) by (apply Rdiv_lt_0_compat; nra). assert (Y := young _ (eta t) (fun i => - kd * s t i) A). fold N in Y.
    replace (- (kd * dot3 (s t) (eta t))) with (dot3 (eta t) (fun i => - kd * s t i)) by (unfold dot3; ring). apply Rle_trans with (1 := Y).
    replace (dot3 (fun i => - kd * s t i) (fun i => - kd * s t i)) with (kd * kd * S) by (unfold S, dot3; ring). right. field. lra. }
  assert (EB : 2 * e * (2 + (O2 + 1) / kp + kd * kd / kp) <= kd).
  { apply Rmult_le_reg_r with (r := kp); [exact Kp|]. replace (2 * e * (2 + (O2 + 1) / kp + kd * kd / kp) * kp) with (2 * e * (2 * kp + (O2 + 1) + kd * kd)) by (field; lra). lra. }
  assert (EN : 2 * e * (2 + (O2 + 1) / kp + kd * kd / kp) * N <= kd * N) by (apply Rmult_le_compat_r; assumption).
  assert (TT : kap * (theta t * theta t) <= T) by (unfold T; nra).
  assert (Z : 2 * e * (dot3 (vee3 (DF t)) (eta t) + (- kp * T - kd * dot3 (s t) (eta t))) <= 2 * e * ((2 + (O2 + 1) / kp + kd * kd / kp) * N - kp / 2 * T)).
  { apply Rmult_le_compat_l; [lra|]. assert (kp / 2 * S <= kp / 2 * T) by (apply Rmult_le_compat_l; lra). lra. }
  assert (Z2 : e * kp * (kap * (theta t * theta t)) <= e * kp * T) by (apply Rmult_le_compat_l; [nra|exact TT]).
  lra.
Qed.
Lemma W_bounds t : 0 <= t -> (kp * (theta t * theta t) + dot3 (eta t) (eta t)) / 2 <= W t <= 3 / 2 * (kp * (theta t * theta t) + dot3 (eta t) (eta t)).
Proof.
  intros Ht. destruct (s_small t Ht) as [_ S2]. unfold W, energy3.
  assert (Y1 := young 1 (s t) (eta t) Rlt_0_1). assert (Y2 := young 1 (fun i => - s t i) (eta t) Rlt_0_1).
  replace (dot3 (fun i => - s t i) (eta t)) with (- dot3 (s t) (eta t)) in Y2 by (unfold dot3; ring).
  replace (dot3 (fun i => - s t i) (fun i => - s t i)) with (dot3 (s t) (s t)) in Y2 by (unfold dot3; ring).
  set (N := dot3 (eta t) (eta t)) in *. set (P := dot3 (s t) (eta t)) in *. set (T := theta t * theta t) in *. set (S := dot3 (s t) (s t)) in *.
  assert (NP : 0 <= N) by apply dot_pos. assert (SP : 0 <= S) by apply dot_pos.
  assert (A1 : 2 * e * P <= e * (T + N)) by nra. assert (A2 : - (2 * e * P) <= e * (T + N)) by nra.
  assert (A3 : e * (T + N) <= (kp * T + N) / 2) by nra. lra.
Qed.
Variable q : R.
Hypothesis Q0 : 0 < q.
Hypothesis Q1 : 3 / 2 * q <= kd.
Hypothesis Q2 : 3 / 2 * q <= e * kap.
Lemma loop_decay t : 0 <= t -> kp * (theta t * theta t) + dot3 (eta t) (eta t) <= 3 * (kp * (theta 0 * theta 0) + dot3 (eta 0) (eta 0)) * exp (- q * t).
Proof.
  intros Ht.
  assert (DE : W t * exp (q * t) <= W 0 * exp (q * 0)).
  { apply (decreasing_derivative (fun u => W u * exp (q * u)) (fun u => (WD u + q * W u) * exp (q * u)) 0 t Ht).
    - intros u Hu. eapply deriv_val; [apply deriv_mult; [apply W_deriv; lra|apply deriv_exp]|]. cbv beta. ring.
    - intros u Hu. assert (WD u + q * W u <= 0); [|assert (0 < exp (q * u)) by apply exp_pos; nra].
      assert (A := WD_le u (proj1 Hu)). destruct (W_bounds u (proj1 Hu)) as [_ B].
      set (N := dot3 (eta u) (eta u)) in *. set (T := theta u * theta u) in *. assert (NP : 0 <= N) by apply dot_pos. assert (TP : 0 <= T) by apply sq_pos.
      assert (B' : q * W u <= q * (3 / 2 * (kp * T + N))) by (apply Rmult_le_compat_l; lra).
      assert (C1 : 3 / 2 * q * N <= kd * N) by (apply Rmult_le_compat_r; assumption).
      assert (C2 : 3 / 2 * q * (kp * T) <= e * kap * (kp * T)) by (apply Rmult_le_compat_r; [nra|assumption]). lra. }
  rewrite Rmult_0_r, exp_0, Rmult_1_r in DE.
  assert (XE : exp (- q * t) * exp (q * t) = 1) by (rewrite <- exp_plus; replace (- q * t + q * t) with 0 by ring; apply exp_0).
  assert (EX' : 0 < exp (- q * t)) by apply exp_pos.
  assert (DE' : W t <= W 0 * exp (- q * t)).
  { apply Rmult_le_compat_r with (r := exp (- q * t)) in DE; [|lra]. rewrite Rmult_assoc, (Rmult_comm (exp (q * t))), XE, Rmult_1_r in DE. exact DE. }
  destruct (W_bounds t Ht) as [B1 _]. destruct (W_bounds 0 (Rle_refl 0)) as [_ B2].
  assert (B3 : W 0 * exp (- q * t) <= 3 / 2 * (kp * (theta 0 * theta 0) + dot3 (eta 0) (eta 0)) * exp (- q * t)) by (apply Rmult_le_compat_r; lra).
  lra.
Qed.
End Loop.
