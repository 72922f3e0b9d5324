(** Proofs of C114. *)
From Coq Require Import String List Arith Bool Reals Lia Lra.
From Verif Require Import Scalar Outcome Linalg Constraint FormPhysSpec RSum Masks MaskReal FrameTasks FrameTasksP FrameTasksR FrameRefute ClosedLoopR SampledTrack JointTrack ComProgram.
Import ListNotations.
Open Scope string_scope.
Open Scope list_scope.
Open Scope nat_scope.

(** * Sampled tracking with critical damping: the reference is sampled, and the acceleration is
    constant between samples. *)
Theorem critical_track (kp dt : R) (x x1 x2 : R -> R) (B : R) (p v : nat -> R) :
  (0 < kp -> 0 < dt -> sqrt kp * dt <= 1 / 2 -> thrice x x1 x2 B ->
  let e n := p n - x (INR n * dt) in let d n := v n - x1 (INR n * dt) in
  let a n := x2 (INR n * dt) - kp * e n - 2 * sqrt kp * d n in
  (forall n, p (S n) = p n + dt * (v n + 1 / 2 * dt * a n)) -> (forall n, v (S n) = v n + dt * a n) ->
  let far := Rmax (Rabs (e 0%nat)) (2 * Rabs (e 0%nat + d 0%nat / sqrt kp)) in
  forall n, Rabs (e n) <= (1 - sqrt kp * dt / 2) ^ n * far + 4 / 3 * dt * B / kp)%R.
Proof.
  intros Hk Hdt Hth T3. set (g := sqrt kp). assert (G : (g * g = kp)%R) by (apply sqrt_sqrt; lra). assert (G0 : (0 < g)%R) by (apply sqrt_lt_R0; exact Hk). fold g in Hth.
  intros e d a EP EV far.
  assert (B0 : (0 <= B)%R) by (destruct T3 as (x3 & T3); destruct (T3 0%R (Rle_refl 0)) as (_ & _ & _ & H); apply Rle_trans with (2 := H); apply Rabs_pos).
  set (tn := fun n => (INR n * dt)%R). assert (TN : forall n, (0 <= tn n)%R) by (intros n; apply Rmult_le_pos; [apply pos_INR|lra]).
  assert (TS : forall n, tn (S n) = (tn n + dt)%R) by (intros n; unfold tn; rewrite S_INR; ring).
  set (R3 := fun n => (x (tn n + dt) - x (tn n) - dt * x1 (tn n) - dt * dt / 2 * x2 (tn n))%R).
  set (R2 := fun n => (x1 (tn n + dt) - x1 (tn n) - dt * x2 (tn n))%R).
  assert (TB : forall n, (Rabs (R3 n) <= B * (dt * dt * dt) / 6 /\ Rabs (R2 n) <= B * (dt * dt) / 2)%R).
  { intros n. destruct (taylor x x1 x2 B (tn n) dt T3 (TN n) ltac:(lra)) as (_ & X & Y). split; assumption. }
  set (f := fun n => (- (dt * dt / 2 * ((1 - 1) * x2 (tn n))) - R3 n)%R).
  set (h := fun n => (f n + (- (dt * ((1 - 1) * x2 (tn n))) - R2 n) / g)%R).
  set (u := fun n => (e n + d n / g)%R).
  assert (YA : forall n, a n = (1 * (x2 (tn n) - g * g * e n - 2 * g * d n))%R) by (intros n; unfold a; fold (tn n); rewrite G; ring).
  assert (ES : forall n, e (S n) = (e n + dt * (d n + 1 / 2 * dt * a n) - dt * dt / 2 * x2 (tn n) - R3 n)%R).
  { intros n. unfold e at 1. fold (tn (S n)). rewrite EP, TS. unfold R3, d, e. fold (tn n). ring. }
  assert (DS : forall n, d (S n) = (d n + dt * a n - dt * x2 (tn n) - R2 n)%R).
  { intros n. unfold d at 1. fold (tn (S n)). rewrite EV, TS. unfold R2, d. fold (tn n). ring. }
  set (de := (B * (dt * dt * dt) / 6)%R). set (du := (de + (B * (dt * dt) / 2) / g)%R).
  assert (BF : forall n, (Rabs (f n) <= de)%R).
  { intros n. replace (f n) with (- R3 n)%R by (unfold f; ring). rewrite Rabs_Ropp. apply TB. }
  assert (BH : forall n, (Rabs (h n) <= du)%R).
  { intros n. replace (h n) with (f n + - (R2 n / g))%R by (unfold h; field; lra). unfold du. apply Rle_trans with (1 := Rabs_triang _ _). apply Rplus_le_compat; [apply BF|].
    rewrite Rabs_Ropp. unfold Rdiv at 1. rewrite Rabs_mult, (Rabs_right (/ g)) by (left; apply Rinv_0_lt_compat; exact G0).
    apply Rmult_le_compat_r; [left; apply Rinv_0_lt_compat; exact G0|apply TB]. }
  assert (TH : (0 < g * dt <= 1 / 2)%R) by (split; [apply Rmult_lt_0_compat; assumption|exact Hth]).
  assert (MAIN := bounded_track (g * dt) 1 de du e u f h TH ltac:(lra)).
  assert (D : (2 * (de + du) / (g * dt) <= 4 / 3 * dt * B / kp)%R).
  { rewrite <- G. unfold du, de.
    replace (2 * (B * (dt * dt * dt) / 6 + (B * (dt * dt * dt) / 6 + (B * (dt * dt) / 2) / g)) / (g * dt))%R
      with ((B * dt * (2 / 3 * (g * dt) + 1)) / (g * g))%R by (field; lra).
    apply Rmult_le_compat_r; [left; apply Rinv_0_lt_compat, Rmult_lt_0_compat; assumption|].
    assert (Z1 : (0 <= B * dt)%R) by (apply Rmult_le_pos; lra). nra. }
  intros n. destruct (fun X1 X2 => MAIN X1 X2 BF BH n) as [M1 M2].
  - intros k. rewrite ES, YA. exact (proj1 (step_error g dt 1 (e k) (d k) (x2 (tn k)) (R3 k) (R2 k) G0)).
  - intros k. unfold u at 1. rewrite ES, DS, YA. exact (proj2 (step_error g dt 1 (e k) (d k) (x2 (tn k)) (R3 k) (R2 k) G0)).
  - change (Rmax (Rabs (e 0%nat)) (2 * Rabs (u 0%nat))) with far in M1. lra.
Qed.

(** The law itself, run from a first state. *)
Fixpoint lawful (kp dt : R) (x x1 x2 : R -> R) (p0 v0 : R) (n : nat) : R * R :=
  match n with
  | O => (p0, v0)
  | S n => let (p, v) := lawful kp dt x x1 x2 p0 v0 n in let t := (INR n * dt)%R in
    let a := (x2 t - kp * (p - x t) - 2 * sqrt kp * (v - x1 t))%R in ((p + dt * (v + 1 / 2 * dt * a))%R, (v + dt * a)%R)
  end.
(** The same for [N] periods only. *)
Theorem critical_track_upto (kp dt : R) (x x1 x2 : R -> R) (B : R) (p v : nat -> R) N :
  (0 < kp -> 0 < dt -> sqrt kp * dt <= 1 / 2 -> thrice x x1 x2 B ->
  let e n := p n - x (INR n * dt) in let d n := v n - x1 (INR n * dt) in
  let a n := x2 (INR n * dt) - kp * e n - 2 * sqrt kp * d n in
  (forall n, (n < N)%nat -> p (S n) = p n + dt * (v n + 1 / 2 * dt * a n) /\ v (S n) = v n + dt * a n) ->
  let far := Rmax (Rabs (e 0%nat)) (2 * Rabs (e 0%nat + d 0%nat / sqrt kp)) in
  forall n, (n <= N)%nat -> Rabs (e n) <= (1 - sqrt kp * dt / 2) ^ n * far + 4 / 3 * dt * B / kp)%R.
Proof.
  intros Hk Hdt Hth T3 e d a H far n Hn. set (q := lawful kp dt x x1 x2 (p 0%nat) (v 0%nat)).
  assert (Q : forall m, m <= N -> q m = (p m, v m)).
  { induction m as [|m IH]; intros L; [reflexivity|]. change (q (S m)) with (let (p, v) := q m in let t := (INR m * dt)%R in
      let a := (x2 t - kp * (p - x t) - 2 * sqrt kp * (v - x1 t))%R in ((p + dt * (v + 1 / 2 * dt * a))%R, (v + dt * a)%R)).
    rewrite IH by lia. destruct (H m ltac:(lia)) as [-> ->]. reflexivity. }
  pose proof (critical_track kp dt x x1 x2 B (fun m => fst (q m)) (fun m => snd (q m)) Hk Hdt Hth T3) as X. cbv zeta beta in X.
  assert (S1 : forall m, q (S m) = let (p, v) := q m in let t := (INR m * dt)%R in
      let a := (x2 t - kp * (p - x t) - 2 * sqrt kp * (v - x1 t))%R in ((p + dt * (v + 1 / 2 * dt * a))%R, (v + dt * a)%R)) by reflexivity.
  specialize (X ltac:(intros m; rewrite S1; destruct (q m); reflexivity) ltac:(intros m; rewrite S1; destruct (q m); reflexivity) n).
  rewrite (Q n Hn), (Q 0 ltac:(lia)) in X. cbn [fst snd] in X. exact X.
Qed.

(** * The program *)
(** The curve the exercise asks the centre of mass to follow. *)
Definition curve (offset amp w : nat -> R) (k : nat) (t : R) : R := (offset k + amp k * sin (w k * t))%R.
Definition curve1 (amp w : nat -> R) (k : nat) (t : R) : R := (w k * amp k * cos (w k * t))%R.
Definition curve2 (amp w : nat -> R) (k : nat) (t : R) : R := (- (w k * w k * amp k) * sin (w k * t))%R.
Lemma curve_smooth offset amp w k : thrice (curve offset amp w k) (curve1 amp w k) (curve2 amp w k) (Rabs (w k * w k * w k * amp k)).
Proof.
  destruct (wave_smooth (offset k) (amp k) (w k) 0) as (x3 & H). exists x3. intros t Ht. destruct (H t Ht) as (A & B & C & D).
  assert (E : forall f g f1 f2, (forall s, f s = g s) -> f1 = f2 -> derivable_pt_lim f t f1 -> derivable_pt_lim g t f2).
  { intros f g f1 f2 X -> Z eps He. destruct (Z eps He) as (de & Hde). exists de. intros q Q1 Q2. rewrite <- !X. apply Hde; assumption. }
  split; [|split; [|split; [|exact D]]].
  - eapply E; [| |exact A]; intros; unfold wave, wave1, curve, curve1; rewrite Rplus_0_r; ring.
  - eapply E; [| |exact B]; intros; unfold wave1, wave2, curve1, curve2; rewrite Rplus_0_r; ring.
  - eapply E; [| |exact C]; intros; unfold wave2, curve2; rewrite ?Rplus_0_r; ring.
Qed.

Section P.
Variables (nv : nat) (jk : vec Rnum) (kp dt : R) (offset amp w : nat -> R).
Variables (d : nat -> cdata Rnum) (dv : nat -> vec Rnum).
Hypothesis Ldv : forall i, vlen (dv i) = nv.
(** What a period asks of the centre of mass. *)
Definition asked_com (i k : nat) : R :=
  let t := (INR i * dt)%R in
  (curve2 amp w k t - kp * (g_p (d i) k - curve offset amp w k t) - 2 * sqrt kp * (g_v (d i) k - curve1 amp w k t))%R.
(** The acceleration of the centre of mass when the joints accelerate with [dv i]. *)
Definition true_acc (i k : nat) : R := accel nv (g_J (d i)) (g_a (d i)) (vget (dv i)) k.
Definition column_ok (i : nat) (c : column) : Prop :=
  let t := (INR i * dt)%R in
  forall k, k < 3 ->
    n_pos c k = g_p (d i) k /\ n_vel c k = g_v (d i) k /\
    n_posr c k = curve offset amp w k t /\ n_velr c k = curve1 amp w k t /\ n_accr c k = curve2 amp w k t /\
    n_ades c k = asked_com i k /\ n_acc c k = (true_acc i k - 2 * g_a (d i) k)%R.
Definition task_met (i : nat) (c : column) : Prop := sat (n_constr c) (vget (dv i)).

Record ready (s : comt Rnum) : Prop := mkReady { rd_made : com_made Rtrunc "task-com" nv s; rd_mask : z_mask s = ones_n 3;
  rd_kp : forall k, z_kp s k = kp; rd_kd : forall k, z_kd s k = (2 * sqrt kp)%R }.
Lemma made_step s o s' : com_made Rtrunc "task-com" nv s -> @com_step Rnum Rtrunc s o = Ret s' tt -> com_made Rtrunc "task-com" nv s'.
Proof. intros (j & s0 & E & R) H. exists j, s0. split; [exact E|]. econstructor; [exact R|exact Logic.I|rewrite H; reflexivity]. Qed.
Lemma build_ready : exists s, com_build nv jk kp = Some s /\ ready s.
Proof.
  unfold com_build, com_new.
  destruct (proj1 (mask_def Rtrunc jk nv (ones_n 3) (mkMt (new_eq "task-com" 3 nv) (vzero 0) (vzero 0) (vzero 0) (vzero 0)) eq_refl)) as [h E].
  { apply (mdim_01 (ones_n 3)), ones_n_01. }
  change (mkVec 3 (fun _ => @n1 Rnum)) with (ones_n 3). rewrite E. cbn [obind].
  cbn [com_step vec3r vlen Nat.eqb go obind vget z_nv z_kp z_kd z_val z_der z_sec z_mask z_h]. eexists. split; [reflexivity|].
  split; [|reflexivity|reflexivity|reflexivity].
  assert (M0 : com_made Rtrunc "task-com" nv (mkComt nv (fun _ => @n0 Rnum) (fun _ => @n0 Rnum) (vzero 3) (vzero 3) (vzero 3) (ones_n 3) h)).
  { exists jk. eexists. split; [|constructor]. unfold com_new. change (mkVec 3 (fun _ => @n1 Rnum)) with (ones_n 3). rewrite E. reflexivity. }
  assert (M1 : com_made Rtrunc "task-com" nv (@mkComt Rnum nv (fun _ => kp) (fun _ => @n0 Rnum) (vzero 3) (vzero 3) (vzero 3) (ones_n 3) h)) by exact (made_step _ (ZKp (vec3r (fun _ => kp))) _ M0 eq_refl).
  exact (made_step _ (ZKd (vec3r (fun _ => 2 * sqrt kp)%R)) _ M1 eq_refl).
Qed.
Lemma turn_ok i s : ready s -> exists s' c, com_turn offset amp w d dv i (INR i * dt)%R s = Some (s', c) /\ ready s' /\ column_ok i c /\
  (task_met i c <-> forall k, k < 3 -> true_acc i k = asked_com i k).
Proof.
  intros [M Em Ekp Ekd]. unfold com_turn.
  set (pos := fun k : nat => (offset k + amp k * sin (w k * (INR i * dt)))%R). set (vel := fun k : nat => (two_pi_f_amp amp w k * cos (w k * (INR i * dt)))%R).
  set (acc := fun k : nat => (- two_pi_f_squared_amp amp w k * sin (w k * (INR i * dt)))%R).
  set (s1 := @mkComt Rnum (z_nv s) (z_kp s) (z_kd s) (vec3r pos) (vec3r vel) (vec3r acc) (z_mask s) (z_h s)).
  change (@com_step Rnum Rtrunc s (ZRef (vec3r pos) (vec3r vel) (vec3r acc))) with (Ret s1 tt). cbn [go obind].
  assert (M1 : com_made Rtrunc "task-com" nv s1) by exact (made_step s (ZRef (vec3r pos) (vec3r vel) (vec3r acc)) s1 M eq_refl).
  destruct (proj2 (com_defined Rtrunc "task-com" nv s1 (d i) M1)) as [s2 E2].
  { cbn [s1 z_val z_der z_sec z_mask vec3r vlen]. rewrite Em. do 3 (split; [reflexivity|]). destruct (mdim_01 _ (ones_n_01 3)) as [-> _]. cbn [vlen ones_n]. lia. }
  rewrite E2. cbn [go obind].
  destruct (com_done _ _ _ _ _ _ M1 E2) as (D1 & D2 & D3 & D4 & D5 & D6 & D).
  destruct (done_acc _ _ _ _ _ _ _ _ _ D false (dv i) (Ldv i)) as (a & Ea & _ & Ha). rewrite Ea. cbn [obind].
  eexists. eexists. split; [reflexivity|]. split; [|split].
  - split; [eapply made_step; eassumption|rewrite D1; exact Em|intros k; rewrite D2; apply Ekp|intros k; rewrite D3; apply Ekd].
  - intros k Hk. cbn [n_pos n_vel n_acc n_posr n_velr n_accr n_ades].
    assert (Hn : nth_error (ons 3 (z_mask s1)) k = Some k).
    { cbn [s1 z_mask]. rewrite Em, ons_ones. destruct k as [|[|[|k]]]; [reflexivity|reflexivity|reflexivity|lia]. }
    do 2 (split; [reflexivity|]). split; [reflexivity|]. split; [unfold vel, curve1, two_pi_f_amp; ring|].
    split; [unfold acc, curve2, two_pi_f_squared_amp, two_pi_f_amp; ring|]. split.
    + destruct D as (_ & _ & _ & D). destruct (D k k Hn) as (_ & _ & -> & _). unfold com_ades, com_pe, com_ve, asked_com. cbn [s1 z_kp z_kd z_val z_der z_sec vec3r vget].
      rewrite Ekp, Ekd. unfold pos, vel, acc, curve, curve1, curve2, two_pi_f_squared_amp, two_pi_f_amp. cbn. ring.
    + rewrite (Ha k k Hn). unfold true_acc, accel. lra.
  - unfold task_met. cbn [n_constr]. rewrite (com_meaning _ _ _ _ _ M1 E2 (vget (dv i))). cbn [s1 z_kp z_kd z_val z_der z_sec z_mask vec3r vget].
    split; intros H k Hk.
    + unfold true_acc. rewrite (H k Hk) by (rewrite Em; reflexivity). rewrite Ekp, Ekd. unfold asked_com, pos, vel, acc, curve, curve1, curve2, two_pi_f_squared_amp, two_pi_f_amp. ring.
    + intros _. rewrite Ekp, Ekd. fold (true_acc i k). rewrite (H k Hk). unfold asked_com, pos, vel, acc, curve, curve1, curve2, two_pi_f_squared_amp, two_pi_f_amp. ring.
Qed.
Lemma loop_ok n : forall i s, ready s -> exists s' l, com_loop dt offset amp w d dv n i (INR i * dt)%R s = Some (s', l) /\ List.length l = n /\
  forall j c, nth_error l j = Some c -> column_ok (i + j) c /\ (task_met (i + j) c <-> forall k, k < 3 -> true_acc (i + j) k = asked_com (i + j) k).
Proof.
  induction n as [|n IH]; intros i s H; cbn [com_loop].
  - exists s, []. split; [reflexivity|]. split; [reflexivity|]. intros j c Hj. destruct j; discriminate.
  - destruct (turn_ok i s H) as (s1 & c1 & E1 & H1 & C1 & T1). rewrite E1. cbn [obind].
    replace (INR i * dt + dt)%R with (INR (S i) * dt)%R by (rewrite S_INR; ring).
    destruct (IH (S i) s1 H1) as (s2 & l & E2 & Ln & Q). rewrite E2. cbn [obind]. exists s2, (c1 :: l). split; [reflexivity|]. split; [cbn; congruence|].
    intros [|j] c Hj; cbn [nth_error] in Hj.
    + injection Hj as <-. rewrite Nat.add_0_r. auto.
    + replace (i + S j) with (S i + j) by lia. apply Q. exact Hj.
Qed.
Theorem program_columns n : exists s l, com_program nv jk kp dt offset amp w d dv n = Some (s, l) /\ List.length l = n /\
  forall i c, nth_error l i = Some c -> column_ok i c /\ (task_met i c <-> forall k, k < 3 -> true_acc i k = asked_com i k).
Proof.
  unfold com_program. destruct build_ready as (s & E & H). rewrite E. cbn [obind].
  destruct (loop_ok n 0 s H) as (s' & l & E' & Ln & Q). cbn [INR] in E'. rewrite Rmult_0_l in E'. exists s', l. split; [exact E'|]. split; [exact Ln|]. exact Q.
Qed.
(** Between samples the centre of mass has the acceleration of the sample. *)
Definition integrated (n k : nat) : Prop := forall i, S i < n ->
  (g_p (d (S i)) k = g_p (d i) k + dt * (g_v (d i) k + 1 / 2 * dt * true_acc i k) /\ g_v (d (S i)) k = g_v (d i) k + dt * true_acc i k)%R.
Theorem program_follows n s l k : com_program nv jk kp dt offset amp w d dv n = Some (s, l) -> k < 3 ->
  (0 < kp)%R -> (0 < dt)%R -> (sqrt kp * dt <= 1 / 2)%R -> integrated n k -> (forall i c, nth_error l i = Some c -> task_met i c) ->
  let e0 := (g_p (d 0) k - offset k)%R in let d0 := (g_v (d 0) k - w k * amp k)%R in
  forall i c, nth_error l i = Some c ->
    (Rabs (n_pos c k - n_posr c k) <= (1 - sqrt kp * dt / 2) ^ i * Rmax (Rabs e0) (2 * Rabs (e0 + d0 / sqrt kp)) + 4 / 3 * dt * Rabs (w k * w k * w k * amp k) / kp)%R.
Proof.
  intros E Hk Hkp Hdt Hs IG T e0 d0 i c Hc. destruct (program_columns n) as (s' & l' & E' & Ln & Q). rewrite E in E'. injection E' as <- <-.
  destruct (Q i c Hc) as [C _]. destruct (C k Hk) as (-> & _ & -> & _).
  assert (Hi : i < n) by (rewrite <- Ln; apply nth_error_Some; congruence).
  pose proof (critical_track_upto kp dt _ _ _ _ (fun i => g_p (d i) k) (fun i => g_v (d i) k) (n - 1) Hkp Hdt Hs (curve_smooth offset amp w k)) as X.
  cbv zeta beta in X.
  assert (Y : forall j, j < n - 1 -> true_acc j k = asked_com j k).
  { intros j Hj. destruct (nth_error l j) as [cj|] eqn:EJ; [|apply nth_error_None in EJ; lia]. destruct (Q j cj EJ) as [_ M]. apply M; [exact (T j cj EJ)|exact Hk]. }
  specialize (X ltac:(intros j Hj; destruct (IG j ltac:(lia)) as [-> ->]; rewrite (Y j Hj); unfold asked_com; split; ring) i ltac:(lia)).
  cbn [INR] in X. rewrite !Rmult_0_l in X.
  replace (g_p (d 0) k - curve offset amp w k 0)%R with e0 in X by (unfold e0, curve; rewrite Rmult_0_r, sin_0; ring).
  replace (g_v (d 0) k - curve1 amp w k 0)%R with d0 in X by (unfold d0, curve1; rewrite Rmult_0_r, cos_0; ring). exact X.
Qed.
(** The first period, robot at rest with its centre of mass at the offset. *)
Theorem program_jump n s l c k : com_program nv jk kp dt offset amp w d dv n = Some (s, l) -> nth_error l 0 = Some c -> k < 3 ->
  g_p (d 0) k = offset k -> g_v (d 0) k = 0%R -> n_accr c k = 0%R /\ n_ades c k = (2 * sqrt kp * (w k * amp k))%R.
Proof.
  intros E Hc Hk Hp Hv. destruct (program_columns n) as (s' & l' & E' & _ & Q). rewrite E in E'. injection E' as <- <-.
  destruct (Q 0 c Hc) as [C _]. destruct (C k Hk) as (_ & _ & _ & _ & -> & -> & _). unfold asked_com. rewrite Hp, Hv. cbn [INR]. unfold curve, curve1, curve2.
  rewrite Rmult_0_l, Rmult_0_r, sin_0, cos_0. split; ring.
Qed.
End P.

(** * A robot that obeys: its centre of mass is moved by the first three joints, with drift 1. *)
Section Obeys.
Variables (kp dt : R) (offset amp w p0 : nat -> R).
Definition law (i k : nat) : R * R := lawful kp dt (curve offset amp w k) (curve1 amp w k) (curve2 amp w k) (p0 k) 0 i.
Definition obey_d (i : nat) : cdata Rnum := @mkCd Rnum (fun k => fst (law i k)) (fun k => snd (law i k)) (fun _ => 1%R) id6.
Definition obey_dv (i : nat) : vec Rnum := @mkVec Rnum 6 (fun k => (asked_com kp dt offset amp w obey_d i k - 1)%R).
Lemma obey_len i : vlen (obey_dv i) = 6.
Proof. reflexivity. Qed.
Lemma obey_acc i k : k < 3 -> true_acc 6 obey_d obey_dv i k = asked_com kp dt offset amp w obey_d i k.
Proof. intros Hk. unfold true_acc. cbn [obey_d g_J g_a]. rewrite accel_id6 by lia. cbn [obey_dv vget]. ring. Qed.
Lemma obey_integrated n k : k < 3 -> integrated 6 dt obey_d obey_dv n k.
Proof.
  intros Hk i _. rewrite obey_acc by exact Hk. unfold asked_com. cbn [obey_d g_p g_v]. unfold law. cbn [lawful]. destruct (lawful _ _ _ _ _ _ _ i) as [p v]. cbn [fst snd]. split; reflexivity.
Qed.
Theorem obey_met jk n : exists s l, com_program 6 jk kp dt offset amp w obey_d obey_dv n = Some (s, l) /\ List.length l = n /\
  forall i c, nth_error l i = Some c -> task_met obey_dv i c /\ forall k, k < 3 -> n_acc c k = (n_ades c k - 2)%R.
Proof.
  destruct (program_columns 6 jk kp dt offset amp w obey_d obey_dv (fun _ => eq_refl) n) as (s & l & E & L & Q). exists s, l. split; [exact E|]. split; [exact L|].
  intros i c Hc. destruct (Q i c Hc) as [C M]. split; [apply M; intros k Hk; apply obey_acc; exact Hk|].
  intros k Hk. destruct (C k Hk) as (_ & _ & _ & _ & _ & -> & ->). rewrite obey_acc by exact Hk. cbn [obey_d g_a]. ring.
Qed.
End Obeys.
