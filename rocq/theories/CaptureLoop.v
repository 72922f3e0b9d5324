(** The capture point task in closed loop: where the capture point and the centre of mass go. *)
From Coq Require Import String List Arith Bool ZArith Reals Lia Lra Psatz.
From Verif Require Import Scalar Outcome Linalg Constraint FormPhysSpec RSum FrameTasks ForceTasks ForceTasksR.
Import ListNotations.
Open Scope nat_scope.

(** * Specification *)
(** One control period per index. The task, whatever its history, has the limits [lo], [hi]
    (support limits less margins); the accelerations satisfy its constraint; in the horizontal
    directions the centre of mass moves with the commanded acceleration during the period [dt] of
    the task. [z k] is the height of the centre of mass. *)
Definition capture_runs (name : string) (nv : nat) (dt g : R) (lo hi : nat -> R) (z : nat -> R) (d : nat -> cdata Rnum) (y : nat -> nat -> R) : Prop :=
  forall k, (exists s s', cap_made name nv dt g s /\ (forall i, i < 2 -> (v_min s i + v_mar s i = lo i /\ v_max s i - v_mar s i = hi i)%R) /\
      @cap_step Rnum sqrt s (VCompute (d k)) = Ret s' tt /\ sat (v_c s') (y k)) /\
    g_p (d k) 2 = z k /\ (0 < z k)%R /\
    forall i, i < 2 -> let a := com_accel nv (d k) (y k) i in
      (g_p (d (S k)) i = g_p (d k) i + g_v (d k) i * dt + a * (dt * dt) / 2 /\ g_v (d (S k)) i = g_v (d k) i + a * dt)%R.
(** Capture point of the linear inverted pendulum. *)
Definition capture (g : R) (d : cdata Rnum) (i : nat) : R := (g_p d i + g_v d i / frequency g (g_p d 2%nat))%R.
(** Position of the centre of mass at time [t] of period [k]. *)
Definition com_at (nv : nat) (d : cdata Rnum) (y : nat -> R) (i : nat) (t : R) : R := (g_p d i + g_v d i * t + com_accel nv d y i * (t * t) / 2)%R.
Definition inside (lo hi x : R) : Prop := (lo <= x <= hi)%R.
(** Distance to an interval. *)
Definition off (lo hi x : R) : R := Rmax 0 (Rmax (lo - x) (x - hi)).

(** * One direction *)
Section One.
Variables (w dt lo hi : R).
Hypothesis Hw : (0 < w)%R.
Hypothesis Hd : (0 < dt)%R.
(** End of the period from its start and the capture points. *)
Definition ratio : R := ((1 - w * dt / 2) / (1 + w * dt / 2))%R.
Lemma wd_pos : (0 < w * dt)%R.
Proof. apply Rmult_lt_0_compat; assumption. Qed.
Lemma ratio_lt : (-1 < ratio < 1)%R.
Proof.
  assert (P := wd_pos). unfold ratio. split.
  - apply Rmult_lt_reg_r with (r := (1 + w * dt / 2)%R); [lra|]. replace ((1 - w * dt / 2) / (1 + w * dt / 2) * (1 + w * dt / 2))%R with (1 - w * dt / 2)%R by (field; lra). lra.
  - apply Rmult_lt_reg_r with (r := (1 + w * dt / 2)%R); [lra|]. replace ((1 - w * dt / 2) / (1 + w * dt / 2) * (1 + w * dt / 2))%R with (1 - w * dt / 2)%R by (field; lra). lra.
Qed.
Lemma ratio_pos : (w * dt <= 2 -> 0 <= ratio)%R.
Proof. intros H. assert (P := wd_pos). unfold ratio. apply Rmult_le_pos; [lra|]. left. apply Rinv_0_lt_compat. lra. Qed.
Lemma next_com p v a : (let p1 := p + v * dt + a * (dt * dt) / 2 in let v1 := v + a * dt in
  p1 = ratio * p + (1 - ratio) * ((p + v / w + (p1 + v1 / w)) / 2))%R.
Proof. assert (P := wd_pos). unfold ratio. cbv zeta. field. split; lra. Qed.
Lemma step_inside p v a : (w * dt <= 2 -> let p1 := p + v * dt + a * (dt * dt) / 2 in let v1 := v + a * dt in
  inside lo hi p -> inside lo hi (p + v / w) -> inside lo hi (p1 + v1 / w) -> inside lo hi p1)%R.
Proof.
  intros H p1 v1 P X Y. assert (R0 := ratio_pos H). assert (R1 := ratio_lt). assert (E := next_com p v a). cbv zeta in E. fold p1 v1 in E.
  unfold inside in *. rewrite E. set (x := (p + v / w)%R) in *. set (y := (p1 + v1 / w)%R) in *. clearbody x y. clear E.
  set (r := ratio) in *. clearbody r. split; nra.
Qed.
(** Below the lower limit the distance shrinks. *)
Lemma step_low p v a : (w * dt <= 2 -> let p1 := p + v * dt + a * (dt * dt) / 2 in let v1 := v + a * dt in
  inside lo hi (p + v / w) -> inside lo hi (p1 + v1 / w) -> lo - p1 <= ratio * (lo - p) /\ p1 - hi <= ratio * (p - hi))%R.
Proof.
  intros H p1 v1 X Y. assert (R0 := ratio_pos H). assert (R1 := ratio_lt). assert (E := next_com p v a). cbv zeta in E. fold p1 v1 in E.
  unfold inside in *. rewrite E. set (x := (p + v / w)%R) in *. set (y := (p1 + v1 / w)%R) in *. clearbody x y. clear E.
  set (r := ratio) in *. clearbody r. split; nra.
Qed.
Lemma step_off p v a : (w * dt <= 2 -> let p1 := p + v * dt + a * (dt * dt) / 2 in let v1 := v + a * dt in
  inside lo hi (p + v / w) -> inside lo hi (p1 + v1 / w) -> off lo hi p1 <= ratio * off lo hi p)%R.
Proof.
  intros H p1 v1 X Y. assert (R0 := ratio_pos H). destruct (step_low p v a H X Y) as [A B]. fold p1 v1 in A, B.
  assert (M0 := Rmax_l 0 (Rmax (lo - p) (p - hi))). assert (M1 := Rmax_r 0 (Rmax (lo - p) (p - hi))). assert (M2 := Rmax_l (lo - p) (p - hi)). assert (M3 := Rmax_r (lo - p) (p - hi)).
  unfold off. apply Rmax_lub; [apply Rmult_le_pos; [exact R0|exact M0]|]. apply Rmax_lub.
  - apply Rle_trans with (1 := A). apply Rmult_le_compat_l; [exact R0|]. lra.
  - apply Rle_trans with (1 := B). apply Rmult_le_compat_l; [exact R0|]. lra.
Qed.
(** During the period: the lower limit, then by symmetry the upper one. *)
Lemma during_low p v a t : (w * dt <= 2 -> lo <= p -> lo <= p + v / w -> lo <= p + v * dt + a * (dt * dt) / 2 -> 0 <= t <= dt -> lo <= p + v * t + a * (t * t) / 2)%R.
Proof.
  intros H P X Q [T0 T1]. destruct (Rle_dec a 0) as [A|A].
  - (* concave: above the chord *)
    assert (C : (p + v * t + a * (t * t) / 2 = (1 - t / dt) * p + (t / dt) * (p + v * dt + a * (dt * dt) / 2) - a * (t * (dt - t)) / 2)%R) by (field; lra).
    rewrite C. set (q := (p + v * dt + a * (dt * dt) / 2)%R) in *. clearbody q.
    assert (S0 : (0 <= t / dt)%R) by (apply Rmult_le_pos; [lra|left; apply Rinv_0_lt_compat; lra]).
    assert (S1 : (t / dt <= 1)%R) by (apply Rmult_le_reg_r with (r := dt); [lra|]; unfold Rdiv; rewrite Rmult_assoc, Rinv_l by lra; lra).
    set (u := (t / dt)%R) in *. clearbody u. assert (0 <= t * (dt - t))%R by (apply Rmult_le_pos; lra). nra.
  - apply Rnot_le_lt in A. destruct (Rle_dec 0 v) as [V|V]; [assert (0 <= v * t)%R by (apply Rmult_le_pos; lra); assert (0 <= a * (t * t))%R by (apply Rmult_le_pos; [lra|apply Rmult_le_pos; lra]); lra|].
    apply Rnot_le_lt in V. assert (VW : (v / w * w = v)%R) by (field; lra). set (x := (v / w)%R) in *. clearbody x.
    destruct (Rle_dec (v + a * dt) 0) as [V1|V1].
    + (* still falling at the end: the end is the lowest point *)
      assert (F : (p + v * dt + a * (dt * dt) / 2 <= p + v * t + a * (t * t) / 2)%R).
      { assert (G : ((v * t + a * (t * t) / 2) - (v * dt + a * (dt * dt) / 2) = - (dt - t) * (v + a * dt) + a * ((dt - t) * (dt - t)) / 2)%R) by field.
        assert (0 <= (dt - t) * - (v + a * dt))%R by (apply Rmult_le_pos; lra). assert (0 <= a * ((dt - t) * (dt - t)))%R by (apply Rmult_le_pos; [lra|apply Rmult_le_pos; lra]). lra. }
      lra.
    + apply Rnot_le_lt in V1.
      (* lowest point at -v/a, before dt <= 2/w *)
      assert (S : (- v * w <= 2 * a)%R) by (assert (- v <= a * dt)%R by lra; assert (w * - v <= w * (a * dt))%R by (apply Rmult_le_compat_l; lra); assert (a * (w * dt) <= a * 2)%R by (apply Rmult_le_compat_l; lra); lra).
      assert (B : (- x <= 2 * a / w / w)%R).
      { apply Rmult_le_reg_r with (r := (w * w)%R); [apply Rmult_lt_0_compat; assumption|]. replace (2 * a / w / w * (w * w))%R with (2 * a)%R by (field; lra). replace (- x * (w * w))%R with (- (x * w) * w)%R by ring. rewrite VW. lra. }
      assert (K : (0 <= a * (v * t + a * (t * t) / 2 - x))%R).
      { replace (a * (v * t + a * (t * t) / 2 - x))%R with ((v + a * t) * (v + a * t) / 2 + (- (v * v) / 2 - a * x))%R by field.
        assert (0 <= (v + a * t) * (v + a * t))%R by apply Rle_0_sqr.
        assert (0 <= - (v * v) / 2 - a * x)%R.
        { rewrite <- VW. assert (0 <= - x * (2 * a - (- v * w)))%R by (apply Rmult_le_pos; [assert (0 < - x)%R; [|lra]; apply Rmult_lt_reg_r with (r := w); lra|lra]). rewrite <- VW in H1. lra. }
        lra. }
      assert (0 <= v * t + a * (t * t) / 2 - x)%R by (apply Rmult_le_reg_l with (r := a); [lra|rewrite Rmult_0_r; exact K]). lra.
Qed.
End One.
Lemma during w dt lo hi p v a t : (0 < w -> 0 < dt -> w * dt <= 2 -> inside lo hi p -> inside lo hi (p + v / w) -> inside lo hi (p + v * dt + a * (dt * dt) / 2) -> 0 <= t <= dt ->
  inside lo hi (p + v * t + a * (t * t) / 2))%R.
Proof.
  intros Hw Hd H [P1 P2] [X1 X2] [Q1 Q2] T. split.
  - apply (during_low w dt lo Hw Hd p v a t); assumption.
  - assert (K := during_low w dt (- hi) Hw Hd (- p) (- v) (- a) t H). assert (E : (- v / w = - (v / w))%R) by (field; lra). rewrite E in K. lra.
Qed.

(** * The loop *)
Section Loop.
Variables (name : string) (nv : nat) (dt g : R) (lo hi : nat -> R) (z : nat -> R) (d : nat -> cdata Rnum) (y : nat -> nat -> R).
Hypothesis Hg : (0 < g)%R.
Hypothesis Hd : (0 < dt)%R.
Hypothesis RUN : capture_runs name nv dt g lo hi z d y.
Let w k := frequency g (z k).
Let Hw k : (0 < w k)%R.
Proof. apply frequency_pos; [exact Hg|]. apply (RUN k). Qed.
(** What the task controls: the capture point reckoned with the height at the start of the period. *)
Lemma task_capture k i : i < 2 -> inside (lo i) (hi i) (g_p (d (S k)) i + g_v (d (S k)) i / w k)%R.
Proof.
  intros Hi. destruct (RUN k) as ((s & s' & M & L & E & HS) & Z & ZP & N). destruct (N i Hi) as [N1 N2].
  destruct (cap_meaning name nv dt g s (d k) M Hg Hd) as (s2 & E2 & X); [rewrite Z; exact ZP|].
  change (cap_stepR s (VCompute (d k)) = Ret s' tt) in E. rewrite E in E2. injection E2 as <-. assert (Q := proj1 (X (y k)) HS i Hi). rewrite (proj1 (L i Hi)), (proj2 (L i Hi)), Z in Q.
  rewrite N1, N2. exact Q.
Qed.
(** Constant height. *)
Hypothesis Hz : forall k, z (S k) = z k.
Lemma same_height k : z k = z 0.
Proof. induction k as [|k IH]; [reflexivity|]. rewrite Hz. exact IH. Qed.
Let w0 := w 0.
Lemma capture_eq k i : capture g (d k) i = (g_p (d k) i + g_v (d k) i / w0)%R.
Proof. unfold capture, w0, w. destruct (RUN k) as (_ & Z & _). rewrite Z, same_height. reflexivity. Qed.
Theorem capture_stays k i : i < 2 -> inside (lo i) (hi i) (capture g (d (S k)) i).
Proof. intros Hi. rewrite capture_eq. assert (T := task_capture k i Hi). unfold w in T. rewrite same_height in T. exact T. Qed.
Lemma com_step k i : i < 2 -> let a := com_accel nv (d k) (y k) i in
  (g_p (d (S k)) i = g_p (d k) i + g_v (d k) i * dt + a * (dt * dt) / 2 /\ g_v (d (S k)) i = g_v (d k) i + a * dt)%R.
Proof. apply (RUN k). Qed.
(** The centre of mass stays between the limits, during the periods too. *)
Theorem com_stays i : i < 2 -> (w0 * dt <= 2)%R -> inside (lo i) (hi i) (g_p (d 0) i) -> inside (lo i) (hi i) (capture g (d 0) i) ->
  forall k t, (0 <= t <= dt)%R -> inside (lo i) (hi i) (com_at nv (d k) (y k) i t).
Proof.
  intros Hi H P X. assert (XK : forall k, inside (lo i) (hi i) (g_p (d k) i + g_v (d k) i / w0)%R).
  { intros k. rewrite <- capture_eq. destruct k as [|k]; [exact X|apply capture_stays, Hi]. }
  assert (PK : forall k, inside (lo i) (hi i) (g_p (d k) i)).
  { induction k as [|k IH]; [exact P|]. destruct (com_step k i Hi) as [N1 N2]. assert (Y := XK (S k)). rewrite N1, N2 in Y. rewrite N1.
    exact (step_inside w0 dt (lo i) (hi i) (Hw 0) Hd _ _ _ H IH (XK k) Y). }
  intros k t T. unfold com_at. apply (during w0 dt (lo i) (hi i) _ _ _ t (Hw 0) Hd H (PK k) (XK k)); [|exact T].
  rewrite <- (proj1 (com_step k i Hi)). apply PK.
Qed.
(** From anywhere it approaches the limits geometrically. *)
Theorem com_approaches i : i < 2 -> (w0 * dt <= 2)%R -> forall k, (off (lo i) (hi i) (g_p (d (S k)) i) <= ratio w0 dt ^ k * off (lo i) (hi i) (g_p (d 1) i))%R.
Proof.
  intros Hi H. induction k as [|k IH]; [cbn [pow]; lra|]. cbn [pow].
  destruct (com_step (S k) i Hi) as [N1 N2]. assert (X := capture_stays k i Hi). assert (Y := capture_stays (S k) i Hi). rewrite capture_eq in X, Y. rewrite N1, N2 in Y. rewrite N1.
  apply Rle_trans with (1 := step_off w0 dt (lo i) (hi i) (Hw 0) Hd _ _ _ H X Y). rewrite Rmult_assoc. apply Rmult_le_compat_l; [apply (ratio_pos w0 dt (Hw 0) Hd H)|exact IH].
Qed.
(** Speed while inside. *)
Theorem com_speed i k : i < 2 -> inside (lo i) (hi i) (g_p (d (S k)) i) -> (Rabs (g_v (d (S k)) i) <= w0 * (hi i - lo i))%R.
Proof.
  intros Hi [P1 P2]. assert (X := capture_stays k i Hi). rewrite capture_eq in X. destruct X as [X1 X2]. assert (W := Hw 0). fold w0 in W.
  assert (E : forall x : R, (x = w0 * (x / w0))%R) by (intros x; field; lra). rewrite (E (g_v (d (S k)) i)). set (q := (g_v (d (S k)) i / w0)%R) in *. rewrite Rabs_mult, (Rabs_right w0) by lra.
  apply Rmult_le_compat_l; [lra|]. apply Rabs_le. lra.
Qed.
(** Whatever the period, the centre of mass remains bounded. *)
Theorem com_bounded i k : i < 2 -> let c := ((lo i + hi i) / 2)%R in let r := ((hi i - lo i) / 2)%R in
  (Rabs (g_p (d (S k)) i - c) <= Rabs (ratio w0 dt) ^ k * Rabs (g_p (d 1%nat) i - c) + r * Rmax 1 (w0 * dt / 2))%R.
Proof.
  intros Hi c r. assert (R1 := ratio_lt w0 dt (Hw 0) Hd). assert (WD := wd_pos w0 dt (Hw 0) Hd).
  assert (LH : (0 <= r)%R) by (destruct (capture_stays 0 i Hi); unfold r; lra).
  induction k as [|k IH].
  - cbn [pow]. assert (1 <= Rmax 1 (w0 * dt / 2))%R by apply Rmax_l. assert (0 <= r * Rmax 1 (w0 * dt / 2))%R by (apply Rmult_le_pos; lra). lra.
  - destruct (com_step (S k) i Hi) as [N1 N2]. assert (X := capture_stays k i Hi). assert (Y := capture_stays (S k) i Hi). rewrite capture_eq in X, Y.
    assert (E := next_com w0 dt (Hw 0) Hd (g_p (d (S k)) i) (g_v (d (S k)) i) (com_accel nv (d (S k)) (y (S k)) i)). cbv zeta in E. rewrite <- N1, <- N2 in E.
    set (q := ratio w0 dt) in *. set (M := Rmax 1 (w0 * dt / 2)) in *.
    assert (QM : ((1 - q) <= (1 - Rabs q) * M)%R).
    { destruct (Rle_dec 0 q) as [Q|Q].
      - rewrite Rabs_right by lra. assert (1 <= M)%R by apply Rmax_l. nra.
      - apply Rnot_le_lt in Q. rewrite Rabs_left by lra. assert (w0 * dt / 2 <= M)%R by apply Rmax_r.
        assert (QE : (q * (1 + w0 * dt / 2) = 1 - w0 * dt / 2)%R) by (unfold q, ratio; field; lra).
        assert (F : ((1 - q) = (1 - - q) * (w0 * dt / 2))%R) by lra. rewrite F at 1. apply Rmult_le_compat_l; lra. }
    assert (B : (Rabs (g_p (d (S (S k))) i - c) <= Rabs q * Rabs (g_p (d (S k)) i - c) + (1 - q) * r)%R).
    { rewrite E. set (x := (g_p (d (S k)) i + g_v (d (S k)) i / w0)%R) in *. set (y1 := (g_p (d (S (S k))) i + g_v (d (S (S k))) i / w0)%R) in *.
      replace (q * g_p (d (S k)) i + (1 - q) * ((x + y1) / 2) - c)%R with (q * (g_p (d (S k)) i - c) + (1 - q) * ((x + y1) / 2 - c))%R by ring.
      apply Rle_trans with (1 := Rabs_triang _ _). rewrite !Rabs_mult, (Rabs_right (1 - q)) by lra. apply Rplus_le_compat_l. apply Rmult_le_compat_l; [lra|].
      apply Rabs_le. unfold inside in X, Y. unfold c, r. lra. }
    apply Rle_trans with (1 := B). cbn [pow]. assert (A0 := Rabs_pos q).
    assert (C1 : (Rabs q * Rabs (g_p (d (S k)) i - c) <= Rabs q * (Rabs q ^ k * Rabs (g_p (d 1) i - c) + r * M))%R) by (apply Rmult_le_compat_l; [exact A0|exact IH]).
    assert (C2 : ((1 - q) * r <= (1 - Rabs q) * M * r)%R) by (apply Rmult_le_compat_r; [exact LH|exact QM]). lra.
Qed.
End Loop.
