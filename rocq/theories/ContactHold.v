(** Contacts in closed loop: a contact frame that starts where it is asked to be, at rest, stays
    there; one that is off returns. *)
From Coq Require Import String List Arith Bool ZArith Reals Lia Lra.
From Verif Require Import Scalar Outcome Linalg Constraint FormPhysSpec RSum Masks MaskReal JointTask FrameTasks FrameTasksP FrameTasksR FrameRefute FrameSetters
  ContactMotion ContactMotionP LinearLoop ClosedLoop RotLoop RotLoop2 OrientLoop.
Import ListNotations.
Open Scope list_scope.
Open Scope nat_scope.

(** * Gronwall *)
Lemma gronwall (f f' : R -> R) C u : (0 <= u -> (forall t, 0 <= t <= u -> derivable_pt_lim f t (f' t)) -> (forall t, 0 <= t <= u -> f' t <= C * f t) -> f 0 = 0 -> f u <= 0)%R.
Proof.
  intros Hu D B Z.
  assert (DE : (f u * exp (- C * u) <= f 0 * exp (- C * 0))%R).
  { apply (decreasing_derivative (fun t => f t * exp (- C * t))%R (fun t => (f' t - C * f t) * exp (- C * t))%R 0 u Hu).
    - intros t Ht. eapply deriv_val; [apply deriv_mult; [apply D, Ht|apply deriv_exp]|]. cbv beta. ring.
    - intros t Ht. assert (X := B t Ht). assert (0 < exp (- C * t))%R by apply exp_pos. nra. }
  rewrite Z, Rmult_0_l in DE. assert (0 < exp (- C * u))%R by apply exp_pos. nra.
Qed.
Lemma dot_zero x : dot3 x x = 0%R -> forall i, i < 3 -> x i = 0%R.
Proof. intros H i Hi. destruct (sum_squares (x 0) (x 1) (x 2)) as (A & B & C); [exact H|]. three i; assumption. Qed.
Lemma turn_dot Q x y : orthogonal Q -> dot3 (rot Q x) (rot Q y) = dot3 x y.
Proof.
  intros O. destruct (orthogonal_orth Q O) as [_ (B0 & B1 & B2 & B01 & B02 & B12)]. unfold rot, dot3 in *. names Q. set (x 0%nat). set (x 1%nat). set (x 2%nat). set (y 0%nat). set (y 1%nat). set (y 2%nat).
  transitivity (r8 * r11 * (r * r + r2 * r2 + r5 * r5) + r9 * r12 * (r0 * r0 + r3 * r3 + r6 * r6) + r10 * r13 * (r1 * r1 + r4 * r4 + r7 * r7)
      + (r8 * r12 + r9 * r11) * (r * r0 + r2 * r3 + r5 * r6) + (r8 * r13 + r10 * r11) * (r * r1 + r2 * r4 + r5 * r7) + (r9 * r13 + r10 * r12) * (r0 * r1 + r3 * r4 + r6 * r7))%R; [ring|].
  rewrite B0, B1, B2, B01, B02, B12. ring.
Qed.
Lemma dot_ext x y u v : (forall i, i < 3 -> x i = u i) -> (forall i, i < 3 -> y i = v i) -> dot3 x y = dot3 u v.
Proof. intros A B. unfold dot3. rewrite !A, !B by lia. reflexivity. Qed.
(** Gains of any sign and size. *)
Definition gain_bound (k : rvec) : R := (Rabs (k 0%nat) + Rabs (k 1%nat) + Rabs (k 2%nat))%R.
Lemma gain_term k K x y : (Rabs k <= K -> k * (x * y) <= K * (x * x + y * y) / 2)%R.
Proof.
  intros H. assert (A := sq_pos (x + y)). assert (B := sq_pos (x - y)).
  assert (C : (Rabs (x * y) <= (x * x + y * y) / 2)%R) by (apply Rabs_le; lra).
  assert (D : (k * (x * y) <= Rabs k * Rabs (x * y))%R) by (rewrite <- Rabs_mult; apply Rle_abs).
  assert (E : (Rabs k * Rabs (x * y) <= K * ((x * x + y * y) / 2))%R) by (apply Rmult_le_compat; try apply Rabs_pos; assumption). lra.
Qed.
Lemma gain_dot k x y : (dot3 (fun i => k i * x i) y <= gain_bound k * (dot3 x x + dot3 y y) / 2)%R.
Proof.
  unfold gain_bound. assert (A := Rabs_pos (k 0%nat)). assert (B := Rabs_pos (k 1%nat)). assert (C := Rabs_pos (k 2%nat)). set (K := (Rabs (k 0%nat) + Rabs (k 1%nat) + Rabs (k 2%nat))%R).
  assert (X := gain_term (k 0%nat) K (x 0%nat) (y 0%nat) ltac:(unfold K; lra)). assert (Y := gain_term (k 1%nat) K (x 1%nat) (y 1%nat) ltac:(unfold K; lra)).
  assert (Z := gain_term (k 2%nat) K (x 2%nat) (y 2%nat) ltac:(unfold K; lra)). unfold dot3. lra.
Qed.
Lemma gain_opp k : gain_bound (fun i => - k i)%R = gain_bound k.
Proof. unfold gain_bound. rewrite !Rabs_Ropp. reflexivity. Qed.
Lemma gain_pos k : (0 <= gain_bound k)%R.
Proof. unfold gain_bound. assert (A := Rabs_pos (k 0%nat)). assert (B := Rabs_pos (k 1%nat)). assert (C := Rabs_pos (k 2%nat)). lra. Qed.

(** * Linear error, axes that turn in any way *)
(** e: error, v: velocity, both in world axes; the law is diagonal in the axes Q. *)
Section Lin.
Variables (Q : R -> rmat) (kp kd : rvec) (e v v1 : R -> rvec).
Hypothesis HQ : forall t, (0 <= t)%R -> orthogonal (Q t).
Hypothesis DE : forall t, (0 <= t)%R -> forall i, i < 3 -> derivable_pt_lim (fun u => e u i) t (- v t i)%R /\ derivable_pt_lim (fun u => v u i) t (v1 t i).
Hypothesis LAW : forall t, (0 <= t)%R -> forall i, i < 3 -> rot (tr (Q t)) (v1 t) i = (kp i * rot (tr (Q t)) (e t) i - kd i * rot (tr (Q t)) (v t) i)%R.
Hypothesis E0 : forall i, i < 3 -> e 0%R i = 0%R.
Hypothesis V0 : forall i, i < 3 -> v 0%R i = 0%R.
Lemma tr_orthogonal (A : rmat) : orthogonal A -> orthogonal (tr A).
Proof. intros O x i Hi. destruct (O x i Hi) as [X Y]. split; assumption. Qed.
Lemma lin_held t : (0 <= t)%R -> forall i, i < 3 -> e t i = 0%R /\ v t i = 0%R.
Proof.
  intros Ht.
  assert (G : (dot3 (e t) (e t) + dot3 (v t) (v t) <= 0)%R).
  { apply (gronwall (fun u => dot3 (e u) (e u) + dot3 (v u) (v u))%R (fun u => (dot3 (fun i => - v u i) (e u) + dot3 (e u) (fun i => - v u i) + (dot3 (v1 u) (v u) + dot3 (v u) (v1 u)))%R) (1 + gain_bound kp + 2 * gain_bound kd)%R t Ht).
    - intros u Hu. apply deriv_plus; apply dot_deriv; intros i Hi; apply DE; lra || exact Hi.
    - intros u [Hu _].
      assert (O := tr_orthogonal _ (HQ u Hu)).
      assert (A : dot3 (v1 u) (v u) = (dot3 (fun i => kp i * rot (tr (Q u)) (e u) i) (rot (tr (Q u)) (v u)) + dot3 (fun i => - kd i * rot (tr (Q u)) (v u) i) (rot (tr (Q u)) (v u)))%R).
      { rewrite <- (turn_dot _ (v1 u) (v u) O). rewrite (dot_ext _ _ (fun i => kp i * rot (tr (Q u)) (e u) i - kd i * rot (tr (Q u)) (v u) i)%R (rot (tr (Q u)) (v u))); [unfold dot3; ring|intros i Hi; apply LAW; assumption|reflexivity]. }
      assert (B1 := gain_dot kp (rot (tr (Q u)) (e u)) (rot (tr (Q u)) (v u))). assert (B2 := gain_dot (fun i => - kd i)%R (rot (tr (Q u)) (v u)) (rot (tr (Q u)) (v u))).
      rewrite gain_opp in B2. rewrite !(turn_dot _ _ _ O) in B1. rewrite !(turn_dot _ _ _ O) in B2.
      assert (C : (dot3 (fun i => - v u i) (e u) + dot3 (e u) (fun i => - v u i) <= dot3 (e u) (e u) + dot3 (v u) (v u))%R).
      { assert (P := dot_pos (fun i => e u i + v u i)%R). assert (E : dot3 (fun i => e u i + v u i)%R (fun i => e u i + v u i)%R = (dot3 (e u) (e u) + dot3 (v u) (v u) + 2 * dot3 (e u) (v u))%R) by (unfold dot3; ring).
        rewrite E in P. replace (dot3 (fun i => - v u i) (e u) + dot3 (e u) (fun i => - v u i))%R with (- (2 * dot3 (e u) (v u)))%R by (unfold dot3; ring). lra. }
      assert (S : dot3 (v u) (v1 u) = dot3 (v1 u) (v u)) by (unfold dot3; ring). rewrite S, A.
      assert (P1 := dot_pos (e u)). assert (P2 := dot_pos (v u)). assert (K1 := gain_pos kp). assert (K2 := gain_pos kd).
      set (X := dot3 (e u) (e u)) in *. set (Y := dot3 (v u) (v u)) in *. nra.
    - unfold dot3. rewrite !E0, !V0 by lia. ring. }
  assert (P1 := dot_pos (e t)). assert (P2 := dot_pos (v t)). intros i Hi. split; apply dot_zero; lra || exact Hi.
Qed.
End Lin.

(** * Angular error *)
Section Ang.
Variables (log3 : rmat -> rvec) (A : R -> rmat) (B : rmat) (kp kd : rvec) (w w1 : R -> rvec).
Hypothesis HP : principal log3.
Hypothesis HA : forall t, (0 <= t)%R -> proper (A t).
Hypothesis HB : proper B.
Hypothesis SA : spins A w w1.
Hypothesis LAW : forall t, (0 <= t)%R -> forall i, i < 3 -> rot (tr (A t)) (w1 t) i = (kp i * rot_error log3 (A t) B i - kd i * rot (tr (A t)) (w t) i)%R.
Hypothesis T0 : apart A (fun _ => B) 0 = 0%R.
Hypothesis W0 : forall i, i < 3 -> w 0%R i = 0%R.
Let Bt := fun _ : R => B.
Let r (t : R) := rot (A t) (rot_error log3 (A t) B).
Let z := fun (_ : R) (_ : nat) => 0%R.
Lemma still_turning : turning Bt z.
Proof. intros t Ht i j Hi Hj. eapply deriv_val; [apply (deriv_const (B i j))|]. three i; unfold cross3, z; ring. Qed.
Let RA t Ht := proper_rotation _ (HA t Ht).
Let RB (t : R) (Ht : (0 <= t)%R) := proper_rotation _ HB.
Lemma ang_principal t : (0 <= t)%R -> (theta A Bt t < PI)%R -> forall i, i < 3 ->
  (theta A Bt t = 0 -> r t i = 0)%R /\ (sin (theta A Bt t) * r t i = theta A Bt t * vee3 (mul_tr (Bt t) (A t)) i)%R.
Proof. intros Ht Hlt i Hi. exact (law_principal log3 A Bt HP HA (fun _ _ => HB) t Ht Hlt i Hi). Qed.
Lemma r_norm t : (0 <= t)%R -> (theta A Bt t < PI)%R -> dot3 (r t) (r t) = (theta A Bt t * theta A Bt t)%R.
Proof.
  intros Ht Hlt. assert (P := ang_principal t Ht Hlt).
  destruct (theta_range A Bt RA RB t Ht) as (TB & _ & TS). set (h := theta A Bt t) in *. destruct (Req_dec h 0) as [E|N].
  - unfold dot3. rewrite (proj1 (P 0 ltac:(lia)) E), (proj1 (P 1 ltac:(lia)) E), (proj1 (P 2 ltac:(lia)) E), E. ring.
  - assert (S : (0 < sin h)%R) by (apply sin_gt_0; lra). apply Rmult_eq_reg_l with (r := (sin h * sin h)%R); [|nra].
    transitivity (dot3 (fun i => sin h * r t i)%R (fun i => sin h * r t i)%R); [unfold dot3; ring|].
    rewrite (dot_ext _ _ (fun i => h * vee3 (mul_tr (Bt t) (A t)) i)%R (fun i => h * vee3 (mul_tr (Bt t) (A t)) i)%R) by (intros i Hi; apply P, Hi).
    transitivity (h * h * dot3 (vee3 (mul_tr (Bt t) (A t))) (vee3 (mul_tr (Bt t) (A t))))%R; [unfold dot3; ring|]. rewrite TS. ring.
Qed.
Lemma ang_held t : (0 <= t)%R -> apart A (fun _ => B) t = 0%R /\ forall i, i < 3 -> w t i = 0%R.
Proof.
  pose (c := fun t => ((trace3 (mul_tr (Bt t) (A t)) - 1) / 2)%R).
  pose (f := fun u => (theta A Bt u * theta A Bt u + dot3 (w u) (w u))%R).
  assert (F0 : f 0%R = 0%R).
  { unfold f. change (theta A Bt 0) with (apart A (fun _ => B) 0). rewrite T0. unfold dot3. rewrite !W0 by lia. ring. }
  assert (K : forall u, (0 <= u)%R -> (forall v, (0 <= v <= u)%R -> (0 <= c v)%R) -> (f u <= 0)%R).
  { intros u Hu HC.
    apply (gronwall f (fun t => 2 * dot3 (r t) (eta w z t) + (dot3 (w1 t) (w t) + dot3 (w t) (w1 t)))%R (1 + gain_bound kp + 2 * gain_bound kd)%R u Hu); [| |exact F0].
    - intros v Hv. unfold f. apply deriv_plus.
      + apply (theta_deriv A Bt w z r RA RB (proj1 SA) still_turning ang_principal v (proj1 Hv)). specialize (HC v Hv). unfold c in HC. lra.
      + apply dot_deriv; intros i Hi; apply (proj2 SA); lra || exact Hi.
    - intros v Hv. assert (V0 := proj1 Hv). assert (HL : (theta A Bt v < PI)%R) by (apply (theta_lt A Bt RA RB v V0); specialize (HC v Hv); unfold c in HC; lra).
      assert (NR := r_norm v V0 HL). assert (O := proj1 (HA v V0)). assert (O' := tr_orthogonal _ O).
      assert (AE : dot3 (w1 v) (w v) = (dot3 (fun i => kp i * rot_error log3 (A v) B i) (rot (tr (A v)) (w v)) + dot3 (fun i => - kd i * rot (tr (A v)) (w v) i) (rot (tr (A v)) (w v)))%R).
      { rewrite <- (turn_dot _ (w1 v) (w v) O'). rewrite (dot_ext _ _ (fun i => kp i * rot_error log3 (A v) B i - kd i * rot (tr (A v)) (w v) i)%R (rot (tr (A v)) (w v))); [unfold dot3; ring|intros i Hi; apply LAW; assumption|reflexivity]. }
      assert (B1 := gain_dot kp (rot_error log3 (A v) B) (rot (tr (A v)) (w v))). assert (B2 := gain_dot (fun i => - kd i)%R (rot (tr (A v)) (w v)) (rot (tr (A v)) (w v))).
      rewrite gain_opp in B2. rewrite !(turn_dot _ _ _ O') in B1. rewrite !(turn_dot _ _ _ O') in B2.
      assert (NE : dot3 (rot_error log3 (A v) B) (rot_error log3 (A v) B) = (theta A Bt v * theta A Bt v)%R) by (rewrite <- NR; unfold r; symmetry; apply turn_dot, O).
      rewrite NE in B1.
      assert (C : (2 * dot3 (r v) (eta w z v) <= theta A Bt v * theta A Bt v + dot3 (w v) (w v))%R).
      { assert (P := dot_pos (fun i => r v i + w v i)%R). assert (E : dot3 (fun i => r v i + w v i)%R (fun i => r v i + w v i)%R = (dot3 (r v) (r v) + dot3 (w v) (w v) + 2 * dot3 (r v) (w v))%R) by (unfold dot3; ring).
        rewrite E, NR in P. replace (dot3 (r v) (eta w z v)) with (- dot3 (r v) (w v))%R by (unfold dot3, eta, z; ring). lra. }
      assert (S : dot3 (w v) (w1 v) = dot3 (w1 v) (w v)) by (unfold dot3; ring). rewrite S, AE. unfold f.
      assert (P1 := sq_pos (theta A Bt v)). assert (P2 := dot_pos (w v)). assert (K1 := gain_pos kp). assert (K2 := gain_pos kd).
      set (X := (theta A Bt v * theta A Bt v)%R) in *. set (Y := dot3 (w v) (w v)) in *. nra. }
  assert (FZ : forall u, (0 <= u)%R -> (f u <= 0)%R -> theta A Bt u = 0%R /\ dot3 (w u) (w u) = 0%R).
  { intros u _ H. unfold f in H. assert (P1 := sq_pos (theta A Bt u)). assert (P2 := dot_pos (w u)). split; [apply square_0; lra|lra]. }
  assert (CC : forall u, (0 <= u)%R -> (0 < c u)%R).
  { apply bootstrap.
    - intros u Hu. apply derivable_continuous_pt. eexists. apply (c_deriv A Bt w z (proj1 SA) still_turning u Hu).
    - destruct (theta_range A Bt RA RB 0 (Rle_refl 0)) as (_ & TC & _). change (theta A Bt 0) with (apart A (fun _ => B) 0) in TC. rewrite T0, cos_0 in TC. unfold c. rewrite <- TC. lra.
    - intros u Hu H. destruct (FZ u Hu (K u Hu H)) as [TZ _]. destruct (theta_range A Bt RA RB u Hu) as (_ & TC & _). rewrite TZ, cos_0 in TC. unfold c. rewrite <- TC. lra. }
  intros Ht. destruct (FZ t Ht (K t Ht (fun v Hv => Rlt_le _ _ (CC v (proj1 Hv))))) as [TZ WZ]. split; [exact TZ|]. intros i Hi. apply dot_zero; assumption.
Qed.
End Ang.
(** No angle between two rotations: they are the same. *)
Lemma apart_same A B t : proper (A t) -> proper (B t) -> apart A B t = 0%R -> forall i j, i < 3 -> j < 3 -> A t i j = B t i j.
Proof.
  intros PA PB H. assert (PE := proper_rotation _ (error_proper _ _ PA PB)). set (E := tr_mul (A t) (B t)) in *.
  destruct (rotation_cos E PE) as [CB CS]. unfold apart, turn_of in H. change (fun a b => rot (tr (A t)) (fun k => B t k b) a) with E in H.
  assert (C1 : ((trace3 E - 1) / 2 = 1)%R) by (rewrite <- (cos_acos _ CB), H; apply cos_0).
  assert (TR : (E 0%nat 0%nat + E 1%nat 1%nat + E 2%nat 2%nat = 3)%R) by (unfold trace3 in C1; lra).
  destruct PE as [(R0 & R1 & R2 & R01 & R02 & R12) _]. unfold dot3 in R0, R1, R2.
  assert (D : forall i, i < 3 -> (E i i <= 1)%R).
  { intros i Hi. three i; [assert (Q1 := sq_pos (E 0%nat 1%nat)); assert (Q2 := sq_pos (E 0%nat 2%nat))|assert (Q1 := sq_pos (E 1%nat 0%nat)); assert (Q2 := sq_pos (E 1%nat 2%nat))|assert (Q1 := sq_pos (E 2%nat 0%nat)); assert (Q2 := sq_pos (E 2%nat 1%nat))]; nra. }
  assert (D0 := D 0 ltac:(lia)). assert (D1 := D 1 ltac:(lia)). assert (D2 := D 2 ltac:(lia)).
  assert (E00 : E 0%nat 0%nat = 1%R) by lra. assert (E11 : E 1%nat 1%nat = 1%R) by lra. assert (E22 : E 2%nat 2%nat = 1%R) by lra.
  rewrite E00 in R0. rewrite E11 in R1. rewrite E22 in R2.
  destruct (sum_squares (E 0%nat 1%nat) (E 0%nat 2%nat) 0) as (Z01 & Z02 & _); [lra|]. destruct (sum_squares (E 1%nat 0%nat) (E 1%nat 2%nat) 0) as (Z10 & Z12 & _); [lra|]. destruct (sum_squares (E 2%nat 0%nat) (E 2%nat 1%nat) 0) as (Z20 & Z21 & _); [lra|].
  assert (ID : forall a b, a < 3 -> b < 3 -> rot (tr (A t)) (fun k => B t k b) a = if a =? b then 1%R else 0%R).
  { intros a b Ha Hb. change (E a b = if a =? b then 1%R else 0%R). three a; three b; cbn [Nat.eqb]; assumption. }
  intros i j Hi Hj. destruct PA as [O _]. rewrite <- (proj1 (O (fun k => B t k j) i Hi)). rewrite (rot_ext _ _ (fun a => if a =? j then 1%R else 0%R)) by (intros a Ha; apply ID; assumption).
  unfold rot. three j; cbn [Nat.eqb]; ring.
Qed.
Lemma same_apart A B t : proper (A t) -> (forall i j, i < 3 -> j < 3 -> A t i j = B t i j) -> apart A B t = 0%R.
Proof.
  intros [O _] H. destruct (orthogonal_orth _ O) as [_ (B0 & B1 & B2 & _)]. unfold apart, turn_of. replace ((trace3 _ - 1) / 2)%R with 1%R; [apply acos_1|].
  unfold trace3, rot, tr, dot3 in *. rewrite <- !H by lia. rewrite B0, B1, B2. field.
Qed.
