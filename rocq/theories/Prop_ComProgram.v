(** Property C114: the centre of mass in the balance exercises ex_1.py and ex_2.py.  Only
    statements; the proofs are in ComProgramP.v. *)
From Coq Require Import String List Arith Bool Reals Lia Lra.
From Verif Require Import Scalar Outcome Linalg Constraint FormPhysSpec RSum Masks MaskReal FrameTasks FrameTasksR SampledTrack ComProgram ComProgramP.
Import ListNotations.
Open Scope list_scope.
Open Scope nat_scope.

(** Whatever the robot measures and the solver answers, no call of the program fails, and
    column i of the plots holds the measured motion, the curve at time i dt with its two
    derivatives, the acceleration asked for, and the acceleration less twice the drift. *)
Theorem C114_runs : forall nv jk kp dt offset amp w (d : nat -> cdata Rnum) (dv : nat -> vec Rnum) n,
  (forall i, vlen (dv i) = nv) ->
  exists s l, com_program nv jk kp dt offset amp w d dv n = Some (s, l) /\ List.length l = n /\
    forall i c k, nth_error l i = Some c -> k < 3 ->
      let t := (INR i * dt)%R in
      let p := (offset k + amp k * sin (w k * t))%R in let v := (w k * amp k * cos (w k * t))%R in let a := (- (w k * w k * amp k) * sin (w k * t))%R in
      n_pos c k = g_p (d i) k /\ n_vel c k = g_v (d i) k /\ n_posr c k = p /\ n_velr c k = v /\ n_accr c k = a /\
      n_ades c k = (a - kp * (g_p (d i) k - p) - 2 * sqrt kp * (g_v (d i) k - v))%R /\
      n_acc c k = (accel nv (g_J (d i)) (g_a (d i)) (vget (dv i)) k - 2 * g_a (d i) k)%R.
Proof.
  intros nv jk kp dt offset amp w d dv n L. destruct (program_columns nv jk kp dt offset amp w d dv L n) as (s & l & E & Ln & Q).
  exists s, l. split; [exact E|]. split; [exact Ln|]. intros i c k Hc Hk. exact (proj1 (Q i c Hc) k Hk).
Qed.
Print Assumptions C114_runs.
(** The velocity and acceleration references are the derivatives of the position reference. *)
Theorem C114_consistent : forall (offset amp w : nat -> R) k,
  thrice (fun t => offset k + amp k * sin (w k * t))%R (fun t => w k * amp k * cos (w k * t))%R (fun t => - (w k * w k * amp k) * sin (w k * t))%R (Rabs (w k * w k * w k * amp k)).
Proof. exact curve_smooth. Qed.
Print Assumptions C114_consistent.
(** The constraint given to the solver holds exactly when the centre of mass has the
    acceleration plotted as com_acc_des; com_acc is then off by twice the drift. *)
Theorem C114_plot : forall nv jk kp dt offset amp w (d : nat -> cdata Rnum) (dv : nat -> vec Rnum) n s l i c,
  (forall i, vlen (dv i) = nv) -> com_program nv jk kp dt offset amp w d dv n = Some (s, l) -> nth_error l i = Some c ->
  (sat (n_constr c) (vget (dv i)) <-> forall k, k < 3 -> accel nv (g_J (d i)) (g_a (d i)) (vget (dv i)) k = n_ades c k) /\
  (sat (n_constr c) (vget (dv i)) <-> forall k, k < 3 -> n_acc c k = (n_ades c k - 2 * g_a (d i) k)%R).
Proof.
  intros nv jk kp dt offset amp w d dv n s l i c L E Hc. destruct (program_columns nv jk kp dt offset amp w d dv L n) as (s' & l' & E' & _ & Q).
  rewrite E in E'. injection E' as <- <-. destruct (Q i c Hc) as [C M]. unfold task_met, true_acc in M.
  split; (etransitivity; [exact M|]); split; intros H k Hk; specialize (H k Hk); destruct (C k Hk) as (_ & _ & _ & _ & _ & A & B); unfold true_acc in B; lra.
Qed.
Print Assumptions C114_plot.
(** "The curves com_acc and com_acc_des coincide when the task is met": false. *)
Theorem C114_plot_refuted : ~ (forall nv jk kp dt offset amp w (d : nat -> cdata Rnum) (dv : nat -> vec Rnum) n s l i c,
  (forall i, vlen (dv i) = nv) -> com_program nv jk kp dt offset amp w d dv n = Some (s, l) -> nth_error l i = Some c ->
  sat (n_constr c) (vget (dv i)) -> forall k, k < 3 -> n_acc c k = n_ades c k).
Proof.
  intros H. set (f := fun _ : nat => 1%R). destruct (obey_met 1 1 f f f f (vzero 0) 1) as (s & l & E & L & Q).
  destruct l as [|c l]; [discriminate|]. destruct (Q 0 c eq_refl) as [M A].
  pose proof (H _ _ _ _ _ _ _ _ _ _ _ _ 0 c (obey_len 1 1 f f f f) E eq_refl M 0 ltac:(lia)) as X. rewrite (A 0 ltac:(lia)) in X. lra.
Qed.
Print Assumptions C114_plot_refuted.
(** When the task is met in each period and the acceleration is constant between samples, the
    plotted position stays near its reference: the initial error fades, what remains is
    proportional to the period. *)
Theorem C114_follows : forall nv jk kp dt offset amp w (d : nat -> cdata Rnum) (dv : nat -> vec Rnum) n s l k,
  (forall i, vlen (dv i) = nv) -> com_program nv jk kp dt offset amp w d dv n = Some (s, l) -> k < 3 ->
  (0 < kp)%R -> (0 < dt)%R -> (sqrt kp * dt <= 1 / 2)%R ->
  (let a i := accel nv (g_J (d i)) (g_a (d i)) (vget (dv i)) k in forall i, S i < n ->
    g_p (d (S i)) k = (g_p (d i) k + dt * (g_v (d i) k + 1 / 2 * dt * a i))%R /\ g_v (d (S i)) k = (g_v (d i) k + dt * a i)%R) ->
  (forall i c, nth_error l i = Some c -> sat (n_constr c) (vget (dv i))) ->
  let e0 := (g_p (d 0%nat) k - offset k)%R in let d0 := (g_v (d 0%nat) k - w k * amp k)%R in
  forall i c, nth_error l i = Some c ->
    (Rabs (n_pos c k - n_posr c k) <= (1 - sqrt kp * dt / 2) ^ i * Rmax (Rabs e0) (2 * Rabs (e0 + d0 / sqrt kp)) + 4 / 3 * dt * Rabs (w k * w k * w k * amp k) / kp)%R.
Proof.
  intros nv jk kp dt offset amp w d dv n s l k L E Hk H1 H2 H3 IG M. exact (program_follows nv jk kp dt offset amp w d dv L n s l k E Hk H1 H2 H3 IG M).
Qed.
Print Assumptions C114_follows.
(** With a constant reference (ex_1.py) nothing remains: the error fades below every bound,
    after a number of periods that depends on the first state, the gain and the period only. *)
Theorem C114_constant : forall kp dt far eps, (0 < kp)%R -> (0 < dt)%R -> (sqrt kp * dt <= 1 / 2)%R -> (0 < eps)%R ->
  exists N, forall nv jk offset w (d : nat -> cdata Rnum) (dv : nat -> vec Rnum) n s l k,
  (forall i, vlen (dv i) = nv) -> com_program nv jk kp dt offset (fun _ => 0%R) w d dv n = Some (s, l) -> k < 3 ->
  (let a i := accel nv (g_J (d i)) (g_a (d i)) (vget (dv i)) k in forall i, S i < n ->
    g_p (d (S i)) k = (g_p (d i) k + dt * (g_v (d i) k + 1 / 2 * dt * a i))%R /\ g_v (d (S i)) k = (g_v (d i) k + dt * a i)%R) ->
  (forall i c, nth_error l i = Some c -> sat (n_constr c) (vget (dv i))) ->
  (Rabs (g_p (d 0%nat) k - offset k) <= far)%R -> (2 * Rabs (g_p (d 0%nat) k - offset k + g_v (d 0%nat) k / sqrt kp) <= far)%R ->
  forall i c, N <= i -> nth_error l i = Some c -> (Rabs (n_pos c k - offset k) < eps)%R.
Proof.
  intros kp dt far eps Hk Hdt Hs He. set (r := (1 - sqrt kp * dt / 2)%R).
  assert (G : (0 < sqrt kp * dt)%R) by (apply Rmult_lt_0_compat; [apply sqrt_lt_R0; exact Hk|exact Hdt]).
  assert (Hr : (0 <= r < 1)%R) by (unfold r; lra).
  assert (F1 : (0 < Rabs far + 1)%R) by (pose proof (Rabs_pos far); lra).
  destruct (pow_lt_1_zero r ltac:(rewrite Rabs_right; lra) (eps / (Rabs far + 1)) ltac:(apply Rdiv_lt_0_compat; assumption)) as [N HN].
  exists N. intros nv jk offset w d dv n s l k L E Hlt IG M B1 B2 i c Hi Hc.
  pose proof (C114_follows nv jk kp dt offset (fun _ => 0%R) w d dv n s l k L E Hlt Hk Hdt Hs IG M i c Hc) as X. cbv zeta in X.
  destruct (C114_runs nv jk kp dt offset (fun _ => 0%R) w d dv n L) as (s' & l' & E' & _ & Q). rewrite E in E'. injection E' as <- <-.
  destruct (Q i c k Hc Hlt) as (_ & _ & P & _). rewrite P in X. clear Q P.
  replace (offset k + 0 * sin (w k * (INR i * dt)))%R with (offset k) in X by ring.
  rewrite (Rmult_0_r (w k)), (Rminus_0_r (g_v (d 0%nat) k)) in X.
  replace (4 / 3 * dt * Rabs (w k * w k * w k * 0) / kp)%R with 0%R in X by (rewrite Rmult_0_r, Rabs_R0; unfold Rdiv; ring). rewrite Rplus_0_r in X. fold r in X.
  assert (V : (Rmax (Rabs (g_p (d 0%nat) k - offset k)) (2 * Rabs (g_p (d 0%nat) k - offset k + g_v (d 0%nat) k / sqrt kp)) <= Rabs far)%R).
  { apply Rle_trans with far; [apply Rmax_lub; assumption|apply Rle_abs]. }
  specialize (HN i Hi). rewrite Rabs_right in HN by (apply Rle_ge, pow_le; lra).
  assert (P0 : (0 <= r ^ i)%R) by (apply pow_le; lra). pose proof (Rabs_pos far).
  apply Rle_lt_trans with (1 := X). apply Rle_lt_trans with (r ^ i * (Rabs far + 1))%R; [apply Rmult_le_compat_l; lra|].
  apply Rmult_lt_reg_r with (/ (Rabs far + 1))%R; [apply Rinv_0_lt_compat; exact F1|]. rewrite Rmult_assoc, Rinv_r by lra. unfold Rdiv in HN. lra.
Qed.
Print Assumptions C114_constant.
(** In the first period, at rest at the offset, the reference acceleration is 0 but the
    velocity reference is not: the task asks for a jump. *)
Theorem C114_jump : forall nv jk kp dt offset amp w (d : nat -> cdata Rnum) (dv : nat -> vec Rnum) n s l c k,
  (forall i, vlen (dv i) = nv) -> com_program nv jk kp dt offset amp w d dv n = Some (s, l) -> nth_error l 0 = Some c -> k < 3 ->
  g_p (d 0%nat) k = offset k -> g_v (d 0%nat) k = 0%R -> n_accr c k = 0%R /\ n_ades c k = (2 * sqrt kp * (w k * amp k))%R.
Proof. intros nv jk kp dt offset amp w d dv n s l c k L. exact (program_jump nv jk kp dt offset amp w d dv L n s l c k). Qed.
Print Assumptions C114_jump.

(** The configured gain and period (romeo_conf.py:15,47), the curve of ex_2.py:28-29 and of
    ex_1.py (amplitude 0), a robot that starts at rest 10 cm beside the offset: the hypotheses of
    C114_follows and C114_constant hold. *)
Lemma sqrt10 : (sqrt 10 * (2 / 1000) <= 1 / 2)%R.
Proof. assert (sqrt 10 <= 4)%R; [|lra]. replace 4%R with (sqrt (4 * 4)) by (apply sqrt_square; lra). apply sqrt_le_1; lra. Qed.
Definition only_y (x : R) (k : nat) : R := if k =? 1 then x else 0%R.
Definition case_d (a : R) : nat -> cdata Rnum := obey_d 10 (2 / 1000) (only_y 0) (only_y a) (only_y PI) (only_y (1 / 10)).
Definition case_dv (a : R) : nat -> vec Rnum := obey_dv 10 (2 / 1000) (only_y 0) (only_y a) (only_y PI) (only_y (1 / 10)).
Example C114_case : forall jk n a, exists s l,
  com_program 6 jk 10 (2 / 1000) (only_y 0) (only_y a) (only_y PI) (case_d a) (case_dv a) n = Some (s, l) /\ List.length l = n /\
  g_p (case_d a 0%nat) 1 = (1 / 10)%R /\ g_v (case_d a 0%nat) 1 = 0%R /\
  (forall k, k < 3 -> integrated 6 (2 / 1000) (case_d a) (case_dv a) n k) /\
  forall i c, nth_error l i = Some c -> sat (n_constr c) (vget (case_dv a i)) /\
    (Rabs (n_pos c 1 - n_posr c 1) <= (1 - sqrt 10 * (2 / 1000) / 2) ^ i * Rmax (1 / 10) (2 * Rabs (1 / 10 + - (PI * a) / sqrt 10))
      + 4 / 3 * (2 / 1000) * Rabs (PI * PI * PI * a) / 10)%R.
Proof.
  intros jk n a. destruct (obey_met 10 (2 / 1000) (only_y 0) (only_y a) (only_y PI) (only_y (1 / 10)) jk n) as (s & l & E & L & Q). exists s, l. split; [exact E|]. split; [exact L|].
  split; [reflexivity|]. split; [reflexivity|]. assert (IG := fun k => obey_integrated 10 (2 / 1000) (only_y 0) (only_y a) (only_y PI) (only_y (1 / 10)) n k). split; [exact IG|].
  intros i c Hc. split; [exact (proj1 (Q i c Hc))|].
  pose proof (C114_follows _ _ _ _ _ _ _ _ _ _ _ _ 1 (obey_len 10 (2 / 1000) (only_y 0) (only_y a) (only_y PI) (only_y (1 / 10))) E ltac:(lia) ltac:(lra) ltac:(lra) sqrt10 (IG 1 ltac:(lia))
    (fun i c H => proj1 (Q i c H)) i c Hc) as X. cbv zeta in X. cbn [obey_d g_p g_v law lawful fst snd] in X. unfold only_y in X. cbn [Nat.eqb] in X.
  replace (1 / 10 - 0)%R with (1 / 10)%R in X by ring. rewrite (Rabs_right (1 / 10)) in X by lra.
  replace (0 - PI * a)%R with (- (PI * a))%R in X by ring. exact X.
Qed.
Print Assumptions C114_case.
