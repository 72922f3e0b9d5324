(** Facts about scalar second-order error dynamics, in continuous and in sampled time. Pure
    mathematics, used by ClosedLoop.v. *)
From Coq Require Import Reals Lra Lia.
Open Scope R_scope.

(** * Continuous time *)
Lemma decreasing_derivative (f f' : R -> R) a b : a <= b -> (forall c, a <= c <= b -> derivable_pt_lim f c (f' c)) ->
  (forall c, a <= c <= b -> f' c <= 0) -> f b <= f a.
Proof.
  intros H D S. destruct (Req_dec a b) as [->|N]; [lra|].
  destruct (MVT_cor2 f f' a b) as (c & E & Hc); [lra|exact D|].
  assert (f' c <= 0) by (apply S; lra). nra.
Qed.
Lemma constant_derivative (f : R -> R) a b : a <= b -> (forall c, a <= c <= b -> derivable_pt_lim f c 0) -> f b = f a.
Proof.
  intros H D. destruct (Req_dec a b) as [->|N]; [lra|].
  destruct (MVT_cor2 f (fun _ => 0) a b) as (c & E & Hc); [lra|exact D|]. lra.
Qed.
Lemma deriv_val f t l l' : derivable_pt_lim f t l -> l = l' -> derivable_pt_lim f t l'.
Proof. intros H <-. exact H. Qed.
Lemma deriv_ext f g t l : (forall u, f u = g u) -> derivable_pt_lim f t l -> derivable_pt_lim g t l.
Proof. intros E H eps He. destruct (H eps He) as (d & Hd). exists d. intros h H1 H2. rewrite <- !E. apply Hd; assumption. Qed.
Lemma deriv_exp a t : derivable_pt_lim (fun u => exp (a * u)) t (a * exp (a * t)).
Proof.
  eapply deriv_val.
  - apply (derivable_pt_lim_comp (fun u => a * u) exp); [|apply derivable_pt_lim_exp].
    apply deriv_val with (l := 0 * t + a * 1); [|reflexivity]. apply (derivable_pt_lim_mult (fun _ => a) (fun u => u)); [apply derivable_pt_lim_const|apply derivable_pt_lim_id].
  - ring.
Qed.
Lemma deriv_mult f g t a b : derivable_pt_lim f t a -> derivable_pt_lim g t b -> derivable_pt_lim (fun u => f u * g u) t (a * g t + f t * b).
Proof. intros. apply (derivable_pt_lim_mult f g); assumption. Qed.
Lemma deriv_plus f g t a b : derivable_pt_lim f t a -> derivable_pt_lim g t b -> derivable_pt_lim (fun u => f u + g u) t (a + b).
Proof. intros. apply (derivable_pt_lim_plus f g); assumption. Qed.
Lemma deriv_minus f g t a b : derivable_pt_lim f t a -> derivable_pt_lim g t b -> derivable_pt_lim (fun u => f u - g u) t (a - b).
Proof. intros. apply (derivable_pt_lim_minus f g); assumption. Qed.
Lemma deriv_const c t : derivable_pt_lim (fun _ => c) t 0.
Proof. apply derivable_pt_lim_const. Qed.

(** First order: e' = - k e has the solution e(0) exp(- k t) only. *)
Lemma first_order k (e : R -> R) : (forall t, 0 <= t -> derivable_pt_lim e t (- k * e t)) -> forall t, 0 <= t -> e t = e 0 * exp (- k * t).
Proof.
  intros H t Ht. assert (E : (fun u => e u * exp (k * u)) t = (fun u => e u * exp (k * u)) 0).
  { apply (constant_derivative (fun u => e u * exp (k * u)) 0 t); [exact Ht|]. intros c Hc. eapply deriv_val; [apply deriv_mult; [apply H; lra|apply deriv_exp]|]. cbv beta. ring. }
  cbv beta in E. rewrite Rmult_0_r, exp_0, Rmult_1_r in E. rewrite <- E, Rmult_assoc, <- exp_plus.
  replace (k * t + - k * t) with 0 by ring. rewrite exp_0. ring.
Qed.

(** Second order: e' = d, d' = - kp e - kd d. *)
Definition pd_motion (kp kd : R) (e d : R -> R) : Prop := forall t, 0 <= t ->
  derivable_pt_lim e t (d t) /\ derivable_pt_lim d t (- kp * e t - kd * d t).
(** The decay rate used below. *)
Definition pd_rate (kp kd : R) : R := Rmin (kd / 3) (kp / kd).
Lemma pd_rate_pos kp kd : 0 < kp -> 0 < kd -> 0 < pd_rate kp kd.
Proof.
  intros P D. unfold pd_rate. apply Rmin_glb_lt; [lra|]. apply Rdiv_lt_0_compat; assumption.
Qed.
Lemma pd_rate_le kp kd : 0 < kd -> pd_rate kp kd <= kd / 3 /\ pd_rate kp kd * kd <= kp.
Proof.
  intros D. split; [apply Rmin_l|]. assert (H := Rmin_r (kd / 3) (kp / kd)). fold (pd_rate kp kd) in H.
  apply Rmult_le_compat_r with (r := kd) in H; [|lra]. replace (kp / kd * kd) with kp in H by (field; lra). exact H.
Qed.
Lemma pd_decay kp kd e d : 0 < kp -> 0 < kd -> pd_motion kp kd e d -> forall t, 0 <= t ->
  d t * d t / 2 + kp * (e t * e t) / 3 <= (3 / 2 * (d 0 * d 0) + 5 / 3 * kp * (e 0 * e 0)) * exp (- pd_rate kp kd * t).
Proof.
  intros P D M t Ht. set (r := pd_rate kp kd). assert (R0 : 0 < r) by (apply pd_rate_pos; assumption).
  destruct (pd_rate_le kp kd D) as [R1 R2]. fold r in R1, R2.
  assert (R3 : r * r <= kp / 3) by nra.
  pose (W := fun u => (d u * d u + kp * (e u * e u)) + 2 * r * (e u * d u)).
  assert (DE : W t * exp (r * t) <= W 0 * exp (r * 0)).
  { pose (W' := fun u => 2 * (- kp * e u - kd * d u) * d u + 2 * kp * (d u * e u) + 2 * r * (d u * d u + e u * (- kp * e u - kd * d u))).
    apply (decreasing_derivative (fun u => W u * exp (r * u)) (fun u => (W' u + r * W u) * exp (r * u)) 0 t Ht).
    - intros c Hc. destruct (M c (proj1 Hc)) as [M1 M2]. eapply deriv_val.
      + apply deriv_mult; [|apply deriv_exp]. unfold W. apply deriv_plus; [apply deriv_plus|].
        * apply deriv_mult; exact M2.
        * apply (deriv_mult (fun _ => kp)); [apply deriv_const|apply deriv_mult; exact M1].
        * apply (deriv_mult (fun _ => 2 * r)); [apply deriv_const|apply deriv_mult; [exact M1|exact M2]].
      + unfold W', W. cbv beta. ring.
    - intros c _. assert (W' c + r * W c <= 0); [|assert (0 < exp (r * c)) by apply exp_pos; nra].
      unfold W', W. generalize (e c) (d c). intros x y.
      (* -(2kd-3r) y² - r kp x² - 2 r (kd - r) x y <= 0 *)
      enough (0 <= (2 * kd - 3 * r) * (y * y) + r * kp * (x * x) + 2 * (r * (kd - r)) * (x * y)) by lra.
      assert (K1 : kd <= 2 * kd - 3 * r) by lra.
      assert (K2 : r * kd * r <= r * kp) by nra.
      assert (S : 0 <= kd * (y * y) + r * kd * r * (x * x) + 2 * (r * (kd - r)) * (x * y)).
      { assert (Q1 : 0 <= (y + r * x) * (y + r * x)) by apply Rle_0_sqr.
        assert (Q2 : 0 <= (y - r * x) * (y - r * x)) by apply Rle_0_sqr.
        assert (T1 : 0 <= (kd - r / 2) * ((y + r * x) * (y + r * x))) by (apply Rmult_le_pos; lra).
        assert (T2 : 0 <= r / 2 * ((y - r * x) * (y - r * x))) by (apply Rmult_le_pos; lra). lra. }
      assert (0 <= y * y) by apply Rle_0_sqr. assert (0 <= x * x) by apply Rle_0_sqr. nra. }
  rewrite Rmult_0_r, exp_0, Rmult_1_r in DE.
  assert (EX : 0 < exp (r * t)) by apply exp_pos.
  assert (XE : exp (- r * t) * exp (r * t) = 1) by (rewrite <- exp_plus; replace (- r * t + r * t) with 0 by ring; apply exp_0).
  assert (EX' : 0 < exp (- r * t)) by apply exp_pos.
  assert (DE' : W t <= W 0 * exp (- r * t)).
  { apply Rmult_le_compat_r with (r := exp (- r * t)) in DE; [|lra]. rewrite Rmult_assoc, (Rmult_comm (exp (r * t))), XE, Rmult_1_r in DE. exact DE. }
  assert (L : forall u, d u * d u / 2 + kp * (e u * e u) / 3 <= W u <= 3 / 2 * (d u * d u) + 5 / 3 * kp * (e u * e u)).
  { intros u. unfold W. generalize (e u) (d u). intros x y.
    assert (0 <= x * x) by apply Rle_0_sqr.
    assert (0 <= (y + 2 * r * x) * (y + 2 * r * x)) by apply Rle_0_sqr.
    assert (0 <= (y - 2 * r * x) * (y - 2 * r * x)) by apply Rle_0_sqr.
    assert (r * r * (x * x) <= kp / 3 * (x * x)) by (apply Rmult_le_compat_r; lra). split; lra. }
  apply Rle_trans with (1 := proj1 (L t)). apply Rle_trans with (1 := DE'). apply Rmult_le_compat_r; [lra|apply L].
Qed.
(** Critical damping has the textbook solution. *)
Lemma pd_critical w e d : pd_motion (w * w) (2 * w) e d -> forall t, 0 <= t -> e t = (e 0 + (d 0 + w * e 0) * t) * exp (- w * t).
Proof.
  intros M t Ht.
  assert (F : forall u, 0 <= u -> d u + w * e u = (d 0 + w * e 0) * exp (- w * u)).
  { apply (first_order w (fun u => d u + w * e u)). intros u Hu. destruct (M u Hu) as [M1 M2]. eapply deriv_val.
    - apply deriv_plus; [exact M2|]. apply (deriv_mult (fun _ => w)); [apply deriv_const|exact M1].
    - cbv beta. ring. }
  pose (c := d 0 + w * e 0).
  assert (G : (fun u => e u * exp (w * u) - c * u) t = (fun u => e u * exp (w * u) - c * u) 0).
  { apply (constant_derivative (fun u => e u * exp (w * u) - c * u) 0 t); [exact Ht|]. intros u Hu. destruct (M u (proj1 Hu)) as [M1 _]. eapply deriv_val.
    - apply deriv_minus; [apply deriv_mult; [exact M1|apply deriv_exp]|]. apply (deriv_mult (fun _ => c)); [apply deriv_const|apply derivable_pt_lim_id].
    - cbv beta. assert (E := F u (proj1 Hu)). assert (X : exp (- w * u) * exp (w * u) = 1) by (rewrite <- exp_plus; replace (- w * u + w * u) with 0 by ring; apply exp_0).
      replace (d u * exp (w * u) + e u * (w * exp (w * u)) - (0 * u + c * 1)) with ((d u + w * e u) * exp (w * u) - c) by ring.
      rewrite E. fold c. rewrite Rmult_assoc, X. ring. }
  cbv beta in G. rewrite !Rmult_0_r, exp_0 in G. fold c.
  assert (X : exp (w * t) * exp (- w * t) = 1) by (rewrite <- exp_plus; replace (w * t + - w * t) with 0 by ring; apply exp_0).
  replace (e t) with (e t * (exp (w * t) * exp (- w * t))) by (rewrite X; ring).
  replace (e 0 + c * t) with (e t * exp (w * t)) by lra. ring.
Qed.

(** * Sampled time *)
(** x(n+2) = a x(n+1) - b x(n). *)
Definition recur (a b : R) (x : nat -> R) : Prop := forall n, x (S (S n)) = a * x (S n) - b * x n.
Definition vanishes (x : nat -> R) : Prop := Un_cv x 0.
Lemma pow_bound q B eps : 0 <= q < 1 -> 0 <= B -> 0 < eps -> exists k, q ^ k * B < eps.
Proof.
  intros Q HB He. destruct (pow_lt_1_zero q) with (y := eps / (B + 1)) as (k & H).
  - rewrite Rabs_right; lra.
  - apply Rdiv_lt_0_compat; lra.
  - exists k. assert (H1 := H k (le_n k)). assert (P : 0 <= q ^ k) by (apply pow_le; lra). rewrite Rabs_right in H1 by lra.
    apply Rmult_lt_compat_r with (r := B + 1) in H1; [|lra]. replace (eps / (B + 1) * (B + 1)) with eps in H1 by (field; lra). nra.
Qed.
(** If x n is a contraction of x (n+1) up to a vanishing term and x is bounded, x vanishes. *)
Lemma backward_contraction q B (x dl : nat -> R) : 0 <= q < 1 -> 0 <= B -> (forall n, Rabs (x n) <= B) ->
  (forall n, Rabs (x n) <= q * Rabs (x (S n)) + Rabs (dl n)) -> vanishes dl -> vanishes x.
Proof.
  intros Q HB HX HC HD eps He. destruct (HD (eps / 2 * (1 - q))) as (N & HN); [apply Rmult_gt_0_compat; lra|].
  exists N. intros n Hn. unfold R_dist. rewrite Rminus_0_r.
  destruct (pow_bound q B (eps / 2) Q HB) as (k & HK); [lra|].
  assert (U : forall j m, (m >= N)%nat -> Rabs (x m) <= q ^ j * B + eps / 2 * (1 - q ^ j)).
  { induction j as [|j IH]; intros m Hm; [cbn [pow]; specialize (HX m); lra|].
    assert (A := HC m). assert (D := HN m Hm). unfold R_dist in D. rewrite Rminus_0_r in D. assert (I := IH (S m) (Nat.le_trans _ _ _ Hm (Nat.le_succ_diag_r m))).
    apply Rmult_le_compat_l with (r := q) in I; [|lra]. cbn [pow]. lra. }
  assert (A := U k n Hn). assert (0 <= q ^ k) by (apply pow_le; lra). nra.
Qed.
Lemma vanishes_scal c x : vanishes x -> vanishes (fun n => c * x n).
Proof.
  intros H. unfold vanishes. replace 0 with (c * 0) by ring. apply CV_mult; [|exact H].
  intros eps He. exists 0%nat. intros n _. unfold R_dist. rewrite Rminus_eq_0, Rabs_R0. exact He.
Qed.
Lemma vanishes_plus x y : vanishes x -> vanishes y -> vanishes (fun n => x n + y n).
Proof. intros H G. unfold vanishes. replace 0 with (0 + 0) by ring. apply CV_plus; assumption. Qed.
Lemma vanishes_mult x y : vanishes x -> vanishes y -> vanishes (fun n => x n * y n).
Proof. intros H G. unfold vanishes. replace 0 with (0 * 0) by ring. apply CV_mult; assumption. Qed.
Lemma vanishes_shift x : vanishes x -> vanishes (fun n => x (S n)).
Proof. intros H eps He. destruct (H eps He) as (N & HN). exists N. intros n Hn. apply HN. lia. Qed.
Lemma vanishes_ext x y : (forall n, x n = y n) -> vanishes x -> vanishes y.
Proof. intros E H eps He. destruct (H eps He) as (N & HN). exists N. intros n Hn. rewrite <- E. apply HN, Hn. Qed.
Lemma vanishes_sqr x : vanishes (fun n => x n * x n) -> vanishes x.
Proof.
  intros H eps He. destruct (H (eps * eps)) as (N & HN); [apply Rmult_gt_0_compat; exact He|]. exists N. intros n Hn. specialize (HN n Hn).
  unfold R_dist in *. rewrite Rminus_0_r in *. rewrite Rabs_mult in HN. assert (0 <= Rabs (x n)) by apply Rabs_pos. nra.
Qed.
(** The Jury conditions are sufficient. *)
Lemma jury_enough a b x : -1 < b < 1 -> Rabs a < 1 + b -> recur a b x -> vanishes x.
Proof.
  intros Hb Ha HR.
  pose (V := fun n => (1 + b) * (x n * x n + x (S n) * x (S n)) - 2 * a * (x n * x (S n))).
  assert (A1 : a < 1 + b /\ - (1 + b) < a) by (apply Rabs_def2 in Ha; lra).
  assert (PD : forall n, (1 + b - Rabs a) * (x n * x n) <= V n).
  { intros n. unfold V. generalize (x n) (x (S n)). intros u v.
    assert (0 <= (u - v) * (u - v)) by apply Rle_0_sqr. assert (0 <= (u + v) * (u + v)) by apply Rle_0_sqr. assert (0 <= v * v) by apply Rle_0_sqr.
    unfold Rabs. destruct (Rcase_abs a); nra. }
  assert (ST : forall n, V n - V (S n) = (1 - b) * ((x (S (S n)) - x n) * (x (S (S n)) - x n))).
  { intros n. unfold V. rewrite (HR n). ring. }
  assert (DE : forall n, V (S n) <= V n).
  { intros n. assert (E := ST n). assert (0 <= (x (S (S n)) - x n) * (x (S (S n)) - x n)) by apply Rle_0_sqr. nra. }
  assert (VP : forall n, 0 <= V n).
  { intros n. apply Rle_trans with (2 := PD n). assert (0 <= x n * x n) by apply Rle_0_sqr. apply Rmult_le_pos; lra. }
  assert (V0 : forall n, V n <= V 0%nat) by (induction n as [|n IH]; [lra|specialize (DE n); lra]).
  assert (DL : vanishes (fun n => x (S (S n)) - x n)).
  { apply vanishes_sqr. destruct (decreasing_cv V) as (l & HL).
    - exact DE.
    - exists 0. intros z (n & ->). unfold opp_seq. specialize (VP n). lra.
    - apply vanishes_ext with (x := fun n => / (1 - b) * (V n - V (S n))).
      + intros n. rewrite ST. field. lra.
      + apply vanishes_scal. unfold vanishes. replace 0 with (l - l) by ring. apply CV_minus; [exact HL|].
        intros eps He. destruct (HL eps He) as (N & HN). exists N. intros n Hn. apply HN. lia. }
  pose (c := 1 + b - Rabs a). assert (C0 : 0 < c) by (unfold c; lra).
  apply (backward_contraction (Rabs a / (1 + b)) (1 + V 0%nat / c) x (fun n => / (1 + b) * (x (S (S n)) - x n))).
  - split.
    + apply Rmult_le_pos; [apply Rabs_pos|]. left. apply Rinv_0_lt_compat. lra.
    + apply Rmult_lt_reg_r with (1 + b); [lra|]. replace (Rabs a / (1 + b) * (1 + b)) with (Rabs a) by (field; lra). lra.
  - assert (0 <= V 0%nat / c); [|lra]. apply Rmult_le_pos; [apply VP|]. left. apply Rinv_0_lt_compat. exact C0.
  - intros n. assert (Q : x n * x n <= V 0%nat / c).
    { apply Rmult_le_reg_r with c; [exact C0|]. replace (V 0%nat / c * c) with (V 0%nat) by (field; lra).
      assert (H1 := PD n). fold c in H1. assert (H2 := V0 n). lra. }
    assert (S1 : Rabs (x n) * Rabs (x n) = x n * x n) by (rewrite <- Rabs_mult; apply Rabs_right; apply Rle_ge, Rle_0_sqr).
    assert (0 <= (Rabs (x n) - 1) * (Rabs (x n) - 1)) by apply Rle_0_sqr. assert (0 <= Rabs (x n)) by apply Rabs_pos. nra.
  - intros n. assert (E : x n = a / (1 + b) * x (S n) + - (/ (1 + b) * (x (S (S n)) - x n))) by (rewrite (HR n); field; lra).
    rewrite E at 1. eapply Rle_trans; [apply Rabs_triang|]. rewrite Rabs_Ropp. apply Rplus_le_compat_r. rewrite Rabs_mult. apply Req_le. f_equal.
    unfold Rdiv. rewrite Rabs_mult. f_equal. apply Rabs_right. left. apply Rinv_0_lt_compat. lra.
  - apply vanishes_scal. exact DL.
Qed.

(** Linear iterations of the plane. *)
Definition iterates (a b c d : R) (x y : nat -> R) : Prop := forall n, x (S n) = a * x n + b * y n /\ y (S n) = c * x n + d * y n.
Definition stable (a b c d : R) : Prop := forall x y, iterates a b c d x y -> vanishes x /\ vanishes y.
Lemma iterates_recur a b c d x y : iterates a b c d x y -> recur (a + d) (a * d - b * c) x /\ recur (a + d) (a * d - b * c) y.
Proof.
  intros H. split; intros n; destruct (H n) as [H1 H2], (H (S n)) as [H3 H4]; rewrite ?H3, ?H4, H1, H2; ring.
Qed.
(** Orbits exist from every start. *)
Fixpoint orbit (a b c d x0 y0 : R) (n : nat) : R * R :=
  match n with
  | O => (x0, y0)
  | S n => let (x, y) := orbit a b c d x0 y0 n in (a * x + b * y, c * x + d * y)
  end.
Lemma orbit_iterates a b c d x0 y0 : iterates a b c d (fun n => fst (orbit a b c d x0 y0 n)) (fun n => snd (orbit a b c d x0 y0 n)).
Proof. intros n. cbn [orbit]. destruct (orbit a b c d x0 y0 n) as [x y]. split; reflexivity. Qed.
Lemma not_vanishing x : (forall n, 1 <= Rabs (x n)) -> ~ vanishes x.
Proof.
  intros H V. destruct (V 1) as (N & HN); [lra|]. specialize (HN N (le_n N)). unfold R_dist in HN. rewrite Rminus_0_r in HN. specialize (H N). lra.
Qed.
Lemma pow_abs_ge1 l n : 1 <= Rabs l -> 1 <= Rabs (l ^ n).
Proof. intros H. rewrite <- RPow_abs. apply pow_R1_Rle. exact H. Qed.
Lemma geometric_vanishes l z : 1 <= Rabs l -> vanishes (fun n => l ^ n * z) -> z = 0.
Proof.
  intros H V. destruct (Req_dec z 0) as [|N]; [assumption|]. exfalso.
  apply (not_vanishing (fun n => / z * (l ^ n * z))).
  - intros n. replace (/ z * (l ^ n * z)) with (l ^ n) by (field; exact N). apply pow_abs_ge1, H.
  - apply vanishes_scal. exact V.
Qed.
(** An eigenvalue l1 of modulus at least one, the other being l2, excludes stability of an
    iteration that is not diagonal. *)
Lemma eigen_unstable a b c d l1 l2 : c <> 0 -> l1 + l2 = a + d -> l1 * l2 = a * d - b * c -> 1 <= Rabs l1 -> ~ stable a b c d.
Proof.
  intros Hc E1 E2 H1 ST. destruct (ST _ _ (orbit_iterates a b c d 1 0)) as [_ VY].
  pose (y := fun n => snd (orbit a b c d 1 0 n)). fold y in VY.
  assert (RY : recur (a + d) (a * d - b * c) y) by apply (iterates_recur _ _ _ _ _ _ (orbit_iterates a b c d 1 0)).
  assert (Z : forall n, y (S n) - l2 * y n = l1 ^ n * (y 1%nat - l2 * y 0%nat)).
  { induction n as [|n IH]; [cbn [pow]; ring|]. cbn [pow]. rewrite Rmult_assoc, <- IH, (RY n), <- E1, <- E2. ring. }
  assert (W : y 1%nat - l2 * y 0%nat = 0).
  { apply (geometric_vanishes l1); [exact H1|]. apply vanishes_ext with (x := fun n => y (S n) + - l2 * y n).
    - intros n. rewrite <- Z. ring.
    - apply vanishes_plus; [apply vanishes_shift; exact VY|apply vanishes_scal; exact VY]. }
  unfold y in W. cbn in W. apply Hc. lra.
Qed.
Lemma det_unstable a b c d : 1 <= Rabs (a * d - b * c) -> ~ stable a b c d.
Proof.
  intros H ST. destruct (ST _ _ (orbit_iterates a b c d 1 0)) as [X1 Y1], (ST _ _ (orbit_iterates a b c d 0 1)) as [X2 Y2].
  set (x1 := fun n => fst (orbit a b c d 1 0 n)) in *. set (y1 := fun n => snd (orbit a b c d 1 0 n)) in *.
  set (x2 := fun n => fst (orbit a b c d 0 1 n)) in *. set (y2 := fun n => snd (orbit a b c d 0 1 n)) in *.
  assert (E : forall n, x1 n * y2 n + -1 * (x2 n * y1 n) = (a * d - b * c) ^ n).
  { induction n as [|n IH]; [unfold x1, x2, y1, y2; cbn; ring|].
    destruct (orbit_iterates a b c d 1 0 n) as [I1 I2], (orbit_iterates a b c d 0 1 n) as [I3 I4].
    fold (x1 n) (x1 (S n)) (y1 n) (y1 (S n)) (x2 n) (x2 (S n)) (y2 n) (y2 (S n)) in *.
    assert (J1 : x1 (S n) = a * x1 n + b * y1 n) by exact I1. assert (J2 : y1 (S n) = c * x1 n + d * y1 n) by exact I2.
    assert (J3 : x2 (S n) = a * x2 n + b * y2 n) by exact I3. assert (J4 : y2 (S n) = c * x2 n + d * y2 n) by exact I4.
    cbn [pow]. rewrite <- IH, J1, J2, J3, J4. ring. }
  apply (not_vanishing (fun n => (a * d - b * c) ^ n)); [intros n; apply pow_abs_ge1, H|].
  apply vanishes_ext with (1 := E). apply vanishes_plus; [apply vanishes_mult; assumption|apply vanishes_scal, vanishes_mult; assumption].
Qed.
(** A matrix whose lower left entry is not zero is stable exactly under the Jury conditions. *)
Theorem stable_iff a b c d : c <> 0 -> stable a b c d <-> -1 < a * d - b * c < 1 /\ Rabs (a + d) < 1 + (a * d - b * c).
Proof.
  intros Hc. split.
  - intros ST. set (q := a * d - b * c). set (s := a + d).
    assert (D : -1 < q < 1).
    { destruct (Rlt_dec (Rabs q) 1) as [H|H]; [apply Rabs_def2 in H; lra|]. exfalso. apply (det_unstable a b c d); [fold q; lra|exact ST]. }
    split; [exact D|]. destruct (Rlt_dec (Rabs s) (1 + q)) as [|N]; [assumption|]. exfalso.
    assert (SS : (1 + q) * (1 + q) <= s * s).
    { assert (E : s * s = Rabs s * Rabs s) by (rewrite <- Rabs_mult; symmetry; apply Rabs_right, Rle_ge, Rle_0_sqr). rewrite E. apply Rmult_le_compat; lra. }
    pose (r := sqrt (s * s - 4 * q)).
    assert (R2 : r * r = s * s - 4 * q) by (apply sqrt_sqrt; nra).
    assert (R0 : 0 <= r) by apply sqrt_pos.
    assert (RB : 1 - q <= r) by nra.
    destruct (Rle_dec 0 s) as [S0|S0].
    + rewrite Rabs_right in N by lra.
      apply (eigen_unstable a b c d ((s + r) / 2) ((s - r) / 2)); [exact Hc|fold s; lra|fold q; nra| |exact ST]. rewrite Rabs_right; lra.
    + rewrite Rabs_left in N by lra.
      apply (eigen_unstable a b c d ((s - r) / 2) ((s + r) / 2)); [exact Hc|fold s; lra|fold q; nra| |exact ST]. rewrite Rabs_left; lra.
  - intros [D T] x y H. destruct (iterates_recur _ _ _ _ _ _ H) as [H1 H2]. split; eapply jury_enough; eassumption.
Qed.
