(** Concrete joint bound tasks and counterexamples. *)
From Coq Require Import String List Arith Bool ZArith QArith Reals Qreals Lia Lra.
From Verif Require Import Scalar Outcome Linalg Constraint FormPhysSpec RSum Masks MaskReal JointBounds JointSpec JointReal JointLimits JointViab JointTask JointPva JointMaskSize SolverSpec.
Import ListNotations.
Open Scope string_scope.
Open Scope nat_scope.

(** One-entry vectors. *)
Definition v1 (x : R) : vec Rnum := @mkVec Rnum 1 (fun _ => x).
Lemma last_v1 x i : i < 1 -> last_of 1 (v1 x) i = x.
Proof. reflexivity. Qed.

(** ** TaskJointBounds *)
Lemma jb_new_R name nv na dt : (0 < dt)%R -> exists s : jb Rnum, @jb_new Rnum name nv na dt = Some s /\ b_dt s = dt.
Proof. intros H. unfold jb_new. replace (@nltb Rnum (@n0 Rnum) dt) with true by (symmetry; apply Rltb_true; exact H). eexists. split; reflexivity. Qed.
Lemma jmade_step {K : num} name nv na (s : jb K) o s' : jmade name nv na s -> after (jb_step s o) = Some s' -> jmade name nv na s'.
Proof. intros (dt & s0 & H0 & Hr) E. exists dt, s0. split; [exact H0|]. eapply reach_step; [exact Hr|exact I|exact E]. Qed.
(** One joint, velocity within [-1,1], acceleration within [-1,1], time step 1. *)
Lemma jb_case name : exists s : jb Rnum, jmade name 1 1 s /\ b_dt s = 1%R /\
  b_vlb s = v1 (- 1) /\ b_vub s = v1 1 /\ b_alb s = v1 (- 1) /\ b_aub s = v1 1.
Proof.
  destruct (jb_new_R name 1 1 1) as (s0 & E & D); [lra|].
  assert (N : b_na s0 = 1). { unfold jb_new in E. destruct (_ <? _)%num; [injection E as <-; reflexivity|discriminate]. }
  assert (M0 : jmade name 1 1 s0) by (exists 1%R, s0; split; [exact E|apply reach_init]).
  assert (E1 : exists s1, jb_step s0 (JVel (v1 (- 1)) (v1 1)) = Ret s1 tt /\ b_na s1 = 1 /\ b_dt s1 = 1%R /\ b_vlb s1 = v1 (- 1) /\ b_vub s1 = v1 1).
  { cbn [jb_step v1 vlen]. rewrite N. cbn [Nat.eqb andb]. eexists. split; [reflexivity|]. auto. }
  destruct E1 as (s1 & E1 & N1 & D1 & L1 & U1). assert (M1 := jmade_step _ _ _ _ _ s1 M0 ltac:(rewrite E1; reflexivity)).
  assert (E2 : exists s2, jb_step s1 (JAcc (v1 (- 1)) (v1 1)) = Ret s2 tt /\ b_dt s2 = 1%R /\ b_vlb s2 = v1 (- 1) /\ b_vub s2 = v1 1 /\ b_alb s2 = v1 (- 1) /\ b_aub s2 = v1 1).
  { cbn [jb_step v1 vlen]. rewrite N1. cbn [Nat.eqb andb]. eexists. split; [reflexivity|]. auto. }
  destruct E2 as (s2 & E2 & X). exists s2. split; [|exact X].
  exact (jmade_step _ _ _ _ _ s2 M1 ltac:(rewrite E2; reflexivity)).
Qed.
(** The velocity 3 cannot be brought back in one step: the bounds cross. *)
Theorem jb_crossed name : exists (s s' : jb Rnum) v, jmade name 1 1 s /\ jb_step s (JCompute v) = Ret s' tt /\
  (vget (b_vlb s) 0 <= vget (b_vub s) 0)%R /\ (vget (b_alb s) 0 <= vget (b_aub s) 0)%R /\
  (vget (c_ub (b_c s')) 0 < vget (c_lb (b_c s')) 0)%R /\ forall y, ~ sat (b_c s') y.
Proof.
  destruct (jb_case name) as (s & M & D & A1 & A2 & A3 & A4).
  destruct (jb_computes name 1 1 s (v1 3)) as (s' & E & _); [lia|exact M|cbn; lia|].
  exists s, s', (v1 3). split; [exact M|]. split; [exact E|].
  assert (O1 : (vget (b_vlb s) 0 <= vget (b_vub s) 0)%R) by (rewrite A1, A2; cbn [v1 vget]; lra).
  assert (O2 : (vget (b_alb s) 0 <= vget (b_aub s) 0)%R) by (rewrite A3, A4; cbn [v1 vget]; lra).
  split; [exact O1|]. split; [exact O2|].
  assert (X : (vget (c_ub (b_c s')) 0 < vget (c_lb (b_c s')) 0)%R).
  { apply Rnot_le_lt. intros H. apply (jb_interval name 1 1 s s' (v1 3) 0) in H; try assumption; try lia.
    rewrite A2, A3, D, last_v1 in H by lia. cbn [v1 vget] in H. lra. }
  split; [exact X|]. intros y H. apply (jb_meaning name 1 1 s s' (v1 3) ltac:(lia) M E) in H. destruct H as [_ H]. specialize (H 0 ltac:(lia)).
  rewrite A2, A3, D, last_v1 in H by lia. cbn [v1 vget] in H. lra.
Qed.

(** ** TaskJointPosVelAccBounds *)
Lemma pmade_step P name nv na dt s o s' : pmade P name nv na dt s -> P s o -> after (rstep s o) = Some s' -> pmade P name nv na dt s'.
Proof. intros (jk & s0 & H0 & Hr) Hp E. exists jk, s0. split; [exact H0|]. eapply reach_step; eassumption. Qed.
(** One joint within [lo,hi], speed at most [m], acceleration at most [A]. *)
Lemma pva_case name (dt lo hi m A : R) : (0 < dt)%R -> exists s : rpva, pmade steady name 1 1 dt s /\
  p_na s = 1 /\ p_qmin s = v1 lo /\ p_qmax s = v1 hi /\ p_dqmax s = v1 m /\ p_ddqmax s = v1 A /\
  p_ipos s = true /\ p_ivia s = true /\ p_ivel s = true /\ p_iacc s = true /\ forall i, p_pos s i = (mhuge, huge) /\ p_via s i = (mhuge, huge).
Proof.
  intros Hd. destruct (pva_new_ok (fun _ => 0) name 1 1 dt (le_n _) Hd) as (s0 & E & (N & _) & _ & _ & _ & _ & PD).
  assert (M0 : pmade steady name 1 1 dt s0) by (exists (fun _ => 0), s0; split; [exact E|apply reach_init]).
  assert (E1 : exists s1, rstep s0 (PPos (v1 lo) (v1 hi)) = Ret s1 tt /\ p_na s1 = 1 /\ p_qmin s1 = v1 lo /\ p_qmax s1 = v1 hi /\ p_ipos s1 = true /\ p_ivia s1 = true /\ forall i, p_pos s1 i = (mhuge, huge) /\ p_via s1 i = (mhuge, huge)).
  { cbn [pva_step v1 vlen]. rewrite N. cbn [Nat.eqb andb]. eexists. split; [reflexivity|]. cbn [w_lims p_na p_qmin p_qmax p_ipos p_ivia p_pos p_via]. auto 10. }
  destruct E1 as (s1 & E1 & N1 & A1 & A2 & A3 & A4 & PD1). assert (M1 := pmade_step _ _ _ _ _ _ (PPos (v1 lo) (v1 hi)) s1 M0 I ltac:(rewrite E1; reflexivity)).
  assert (E2 : exists s2, rstep s1 (PVel (v1 m)) = Ret s2 tt /\ p_na s2 = 1 /\ p_qmin s2 = v1 lo /\ p_qmax s2 = v1 hi /\ p_ipos s2 = true /\ p_ivia s2 = true /\
    p_dqmax s2 = v1 m /\ p_ivel s2 = true /\ forall i, p_pos s2 i = (mhuge, huge) /\ p_via s2 i = (mhuge, huge)).
  { cbn [pva_step v1 vlen]. rewrite N1. cbn [Nat.eqb andb]. eexists. split; [reflexivity|]. cbn [w_lims p_na p_qmin p_qmax p_dqmax p_ddqmax p_ipos p_ivia p_ivel p_iacc p_pos p_via]. auto 12. }
  destruct E2 as (s2 & E2 & N2 & B1 & B2 & B3 & B4 & B5 & B6 & PD2). assert (M2 := pmade_step _ _ _ _ _ _ (PVel (v1 m)) s2 M1 I ltac:(rewrite E2; reflexivity)).
  assert (E3 : exists s3, rstep s2 (PAcc (v1 A)) = Ret s3 tt /\ p_na s3 = 1 /\ p_qmin s3 = v1 lo /\ p_qmax s3 = v1 hi /\ p_dqmax s3 = v1 m /\ p_ddqmax s3 = v1 A /\
    p_ipos s3 = true /\ p_ivia s3 = true /\ p_ivel s3 = true /\ p_iacc s3 = true /\ forall i, p_pos s3 i = (mhuge, huge) /\ p_via s3 i = (mhuge, huge)).
  { cbn [pva_step v1 vlen]. rewrite N2. cbn [Nat.eqb andb]. eexists. split; [reflexivity|]. cbn [w_lims p_na p_qmin p_qmax p_dqmax p_ddqmax p_ipos p_ivia p_ivel p_iacc p_pos p_via]. auto 12. }
  destruct E3 as (s3 & E3 & X). exists s3. split; [|exact X].
  exact (pmade_step _ _ _ _ _ _ (PAcc (v1 A)) s3 M2 I ltac:(rewrite E3; reflexivity)).
Qed.

Lemma moved1 q v y t : moved 1 1 (v1 q) (v1 v) y t (v1 (pos_at q v (y 0%nat) t)) (v1 (vel_at v (y 0%nat) t)).
Proof. split; [reflexivity|]. split; [reflexivity|]. intros i Hi. assert (i = 0) by lia. subst. split; reflexivity. Qed.
(** A narrow range: all limits imposed, a viable state, one control step of length dt,
    and the joint is outside its position limits. *)
Theorem narrow_leaves name : exists (s s' : rpva) q' v', pmade steady name 1 1 1 s /\
  p_ipos s = true /\ p_ivia s = true /\ p_ivel s = true /\ p_iacc s = true /\ safe_state s 1 (v1 0) (v1 (2 / 5)) /\
  controlled 1 1 1 (s, v1 0, v1 (2 / 5)) (s', q', v') /\ (last_of 1 q' 0 < vget (p_qmin s) 0)%R.
Proof.
  destruct (pva_case name 1 0 (2 / 25) 10 1) as (s & M & N & Q1 & Q2 & Q3 & Q4 & F1 & F2 & F3 & F4 & _); [lra|].
  destruct (pva_compute_ok s (v1 0) (v1 (2 / 5))) as (s' & E & _); [rewrite N; cbn; lia|rewrite N; cbn; lia|].
  set (y := fun _ : nat => (- 1)%R).
  exists s, s', (v1 (pos_at 0 (2 / 5) (y 0%nat) 1)), (v1 (vel_at (2 / 5) (y 0%nat) 1)). split; [exact M|]. repeat (split; [assumption|]). split.
  - intros i Hi. assert (i = 0) by lia. subst i. rewrite Q1, Q2, Q3, Q4, !last_v1 by lia. cbn [v1 vget]. split; [|lra].
    apply stoppable_iff; [lra|]. unfold brake. lra.
  - split.
    + eapply ctl_step with (y := y) (t := 1%R); [apply ctl_here|exact E| |lra|apply moved1].
      apply (pva_sat name 1 1 1 s (v1 0) (v1 (2 / 5)) s' ltac:(lia) M E). intros i Hi. assert (i = 0) by lia. subst i.
      destruct (pmade_inv name 1 1 1 s ltac:(lia) M) as (_ & _ & _ & I3 & I4 & I5 & I6 & _).
      unfold row_of. rewrite F1, F2, F3, F4, N, I3, I4, I5, I6, Q1, Q2, Q3, Q4, !last_v1 by lia. cbn [v1 vget].
      assert (P2 : snd (@pos_lim Rnum (2 * 1)%R (2 / (2 * 1 * (2 * 1)))%R 0%R (2 / 25)%R 0%R (2 / 5)%R) = (- 1)%R).
      { rewrite pos_lim_up by lra. unfold up_lim. destruct (Rle_dec (2 / 5) 0); [lra|]. destruct (Rlt_dec _ _); [lra|].
        destruct (Req_EM_T _ _); [lra|]. unfold Rmin. destruct (Rle_dec _ _); lra. }
      assert (P1 : fst (@pos_lim Rnum (2 * 1)%R (2 / (2 * 1 * (2 * 1)))%R 0%R (2 / 25)%R 0%R (2 / 5)%R) = (- 2 / 5)%R).
      { assert (X := pos_lim_low (2 * 1) 0 (2 / 25) 0 (2 / 5) ltac:(lra) ltac:(lra) ltac:(lra)). unfold up_lim in X.
        destruct (Rle_dec (- (2 / 5)) 0); [|lra]. match goal with |- ?a = ?b => change (@eq R a b); set (z := a) in * end. lra. }
      set (p := @pos_lim Rnum _ _ _ _ _ _) in *.
      assert (V2 : (- 1 < snd (@via_lim Rnum rsqrt (2 * 1)%R (2 * 1 * (2 * 1))%R (2 * (2 * 1 * (2 * 1)))%R 1%R 0%R (2 / 25)%R 0%R (2 / 5)%R))%R).
      { rewrite via_lim_up. unfold via_up. eapply Rlt_le_trans; [|apply Rmax_r]. lra. }
      set (w := @via_lim Rnum _ _ _ _ _ _ _ _ _) in *.
      unfold vel_lim, acc_lim, resolve, within. cbn [fst snd Rnum nltb neqb nsub ndiv nopp]. rewrite P1, P2, !nmax_R, !nmin_R.
      set (lb := Rmax _ _). set (ub := Rmin _ _).
      assert (U : ub = (- 1)%R).
      { unfold ub. rewrite (Rmin_left (-1) (snd w)) by lra. unfold Rmin. repeat (destruct (Rle_dec _ _)); lra. }
      assert (L : (- 2 / 5 <= lb)%R).
      { unfold lb. eapply Rle_trans; [|apply Rmax_l]. eapply Rle_trans; [|apply Rmax_l]. apply Rmax_l. }
      replace (Rltb ub lb) with true by (symmetry; apply Rltb_true; lra).
      replace (Reqb ub (- 1)) with true by (symmetry; apply Reqb_true; exact U). cbn [fst snd]. rewrite U. unfold y. lra.
    + rewrite Q1, last_v1 by lia. cbn [v1 vget]. unfold pos_at, y. lra.
Qed.

(** The joints after setImposeBounds. *)
Lemma impose_step name nv na dt (s : rpva) a b c d : pmade steady name nv na dt s -> exists s1, rstep s (PImpose a b c d) = Ret s1 tt /\
  pmade steady name nv na dt s1 /\ p_na s1 = p_na s /\ p_qmin s1 = p_qmin s /\ p_qmax s1 = p_qmax s /\ p_dqmax s1 = p_dqmax s /\ p_ddqmax s1 = p_ddqmax s /\
  p_ipos s1 = a /\ p_ivel s1 = b /\ p_ivia s1 = c /\ p_iacc s1 = d /\ p_pos s1 = p_pos s /\ p_via s1 = p_via s.
Proof.
  intros M. assert (E : rstep s (PImpose a b c d) = Ret (w_lims s (p_dt s) (p_qmin s) (p_qmax s) (p_dqmax s) (p_ddqmax s) a b c d) tt) by reflexivity.
  eexists. split; [exact E|]. split; [apply (pmade_step _ _ _ _ _ s (PImpose a b c d) _ M I); reflexivity|]. repeat split.
Qed.
(** Viability limits without position limits: an admissible acceleration moves the joint
    out of its range. *)
Theorem viability_alone_leaves name : exists (s s' : rpva) q' v', pmade steady name 1 1 5 s /\ p_ipos s = false /\ p_ivia s = true /\ p_ivel s = true /\ p_iacc s = true /\ (forall i, i < 1 -> roomy s (2 * 5) i) /\
  safe_state s 1 (v1 (1 / 2)) (v1 1) /\
  controlled 1 1 5 (s, v1 (1 / 2), v1 1) (s', q', v') /\ (vget (p_qmax s) 0 < last_of 1 q' 0)%R.
Proof.
  destruct (pva_case name 5 (- 1000) 1 100 1) as (s0 & M0 & N0 & Q1 & Q2 & Q3 & Q4 & _ & _ & _ & _ & PD); [lra|].
  destruct (impose_step name 1 1 5 s0 false true true true M0) as (s & E0 & M & N & R1 & R2 & R3 & R4 & F1 & F2 & F3 & F4 & P1 & P2).
  rewrite N0 in N. rewrite Q1 in R1. rewrite Q2 in R2. rewrite Q3 in R3. rewrite Q4 in R4.
  destruct (pva_compute_ok s (v1 (1 / 2)) (v1 1)) as (s' & E & _); [rewrite N; cbn; lia|rewrite N; cbn; lia|].
  set (y := fun _ : nat => (- (1 / 10))%R).
  exists s, s', (v1 (pos_at (1 / 2) 1 (y 0%nat) 5)), (v1 (vel_at 1 (y 0%nat) 5)). split; [exact M|]. repeat (split; [assumption|]). split; [|split; [|split]].
  - intros i Hi. assert (i = 0) by lia. subst i. unfold roomy. rewrite R1, R2, R3, R4, F2, F4. cbn [v1 vget]. repeat split; try lra.
  - intros i Hi. assert (i = 0) by lia. subst i. rewrite R1, R2, R3, R4, !last_v1 by lia. cbn [v1 vget]. split; [|lra].
    apply stoppable_iff; [lra|]. unfold brake. lra.
  - eapply ctl_step with (y := y) (t := 5%R); [apply ctl_here|exact E| |lra|apply moved1].
    assert (IM : imposed_any s (2 * 5) 0 (1 / 2) 1 (- (1 / 10))).
    { unfold imposed_any. rewrite F1, F2, F3, F4, R1, R2, R3, R4, P1, (proj1 (PD 0)). cbn [v1 vget]. unfold within, via_ok, vel_at, pos_at. cbn [fst snd].
      rewrite huge_R, mhuge_R. repeat split; lra. }
    apply (pva_meaning name 1 1 5 s s' (v1 (1 / 2)) (v1 1) ltac:(lia) M E).
    + intros i Hi _. assert (i = 0) by lia. subst i. rewrite R4. cbn [v1 vget]. lra.
    + intros i Hi. assert (i = 0) by lia. subst i. exists (- (1 / 10))%R. exact IM.
    + intros i Hi. assert (i = 0) by lia. subst i. exact IM.
  - rewrite R2, last_v1 by lia. cbn [v1 vget]. unfold pos_at, y. lra.
Qed.
(** Position limits [-1,1], joint at 0 with velocity 0, horizon h, only position limits
    imposed: the interval. *)
Lemma pos_only_row (s : rpva) (h : R) : p_na s = 1 -> p_ipos s = true -> p_ivia s = false -> p_ivel s = false -> p_iacc s = false ->
  p_qmin s = v1 (- 1) -> p_qmax s = v1 1 -> p_via s 0 = (mhuge, huge) -> (0 < h)%R -> p_tds s = (2 / (h * h))%R -> (2 / (h * h) <= 10 ^ 10)%R ->
  forall a, within (row_of s (v1 0) (v1 0) 0) a <-> (- (2 / (h * h)) <= a <= 2 / (h * h))%R.
Proof.
  intros N F1 F2 F3 F4 Q1 Q2 P Hh HT HB a. unfold row_of. rewrite F1, F2, F3, F4, N, Q1, Q2, P, HT, !last_v1 by lia. cbn [v1 vget].
  assert (HX : (0 < 2 / (h * h))%R) by (apply Rdiv_lt_0_compat; nra). set (x := (2 / (h * h))%R) in *.
  assert (PL : @pos_lim Rnum (p_dt s) x (- 1)%R 1%R 0%R 0%R = ((- x)%R, x)).
  { unfold pos_lim. cbn [Rnum nleb nltb nsub nmul ndiv nopp n0]. replace (Rleb 0 0) with true by (symmetry; apply Rleb_true; lra).
    replace (- 0 / p_dt s)%R with 0%R by (unfold Rdiv; rewrite Ropp_0; ring).
    replace (Rltb (x * (- 1 - 0 - p_dt s * 0)) 0) with true by (symmetry; apply Rltb_true; lra). f_equal; ring. }
  rewrite PL. rewrite (resolve_exact _ _ _ _ 0%R); unfold within, vel_lim, acc_lim; cbn [fst snd]; rewrite ?huge_R, ?mhuge_R; lra.
Qed.
(** Constructed with dt = 1 then setTimeStep(10), against constructed with dt = 10. *)
Theorem set_time_step_differs name : exists (s1 s2 s1' s2' : rpva) y,
  pmade any_op name 1 1 1 s1 /\ pmade any_op name 1 1 10 s2 /\
  (exists s0, pmade any_op name 1 1 1 s0 /\ rstep s0 (@PDt Rnum 10%R) = Ret s1 tt) /\
  p_qmin s1 = p_qmin s2 /\ p_qmax s1 = p_qmax s2 /\ p_ipos s1 = true /\ p_ipos s2 = true /\ p_ivia s1 = p_ivia s2 /\ p_ivel s1 = p_ivel s2 /\ p_iacc s1 = p_iacc s2 /\
  rstep s1 (PCompute (v1 0) (v1 0)) = Ret s1' tt /\ rstep s2 (PCompute (v1 0) (v1 0)) = Ret s2' tt /\
  sat (p_c s1') y /\ ~ sat (p_c s2') y /\ (vget (p_qmax s1) 0 < pos_at 0 0 (y 0%nat) 10)%R.
Proof.
  assert (SA : forall dt s, pmade steady name 1 1 dt s -> pmade any_op name 1 1 dt s).
  { intros dt s (jk & s0 & H0 & Hr). exists jk, s0. split; [exact H0|]. clear H0. induction Hr as [|s o s' Hr IH Hp E]; [apply reach_init|]. eapply reach_step; [exact IH|exact I|exact E]. }
  destruct (pva_case name 1 (- 1) 1 1 1) as (a0 & MA0 & NA0 & A1 & A2 & A3 & A4 & _ & _ & _ & _ & PA); [lra|].
  destruct (impose_step name 1 1 1 a0 true false false false MA0) as (a & _ & MA & NA & RA1 & RA2 & RA3 & RA4 & FA1 & FA2 & FA3 & FA4 & PA1 & PA2).
  destruct (pva_case name 10 (- 1) 1 1 1) as (b0 & MB0 & NB0 & B1 & B2 & B3 & B4 & _ & _ & _ & _ & PB); [lra|].
  destruct (impose_step name 1 1 10 b0 true false false false MB0) as (b & _ & MB & NB & RB1 & RB2 & RB3 & RB4 & FB1 & FB2 & FB3 & FB4 & PB1 & PB2).
  destruct (pmade_inv name 1 1 1 a ltac:(lia) MA) as (_ & IA1 & _ & IA3 & IA4 & IA5 & IA6 & _ & _ & _ & _ & IA11 & IA12 & _).
  destruct (pmade_inv name 1 1 10 b ltac:(lia) MB) as (_ & IB1 & _ & IB3 & IB4 & IB5 & IB6 & _).
  set (c := w_lims a (10%R : Rnum) (p_qmin a) (p_qmax a) (p_dqmax a) (p_ddqmax a) (p_ipos a) (p_ivel a) (p_ivia a) (p_iacc a)).
  assert (EC : rstep a (@PDt Rnum 10%R) = Ret c tt).
  { cbn [pva_step]. replace (@nltb Rnum (@n0 Rnum) 10%R) with true; [reflexivity|]. symmetry. apply Rltb_true. change (@n0 Rnum) with 0%R. lra. }
  destruct (pva_compute_ok c (v1 0) (v1 0)) as (c' & EC' & _); [cbn; rewrite IA1; lia|cbn; rewrite IA1; lia|].
  destruct (pva_compute_ok b (v1 0) (v1 0)) as (b' & EB' & _); [rewrite IB1; cbn; lia|rewrite IB1; cbn; lia|].
  exists c, b, c', b', (fun _ => (1 / 2)%R).
  split; [apply (pmade_step _ _ _ _ _ a (@PDt Rnum 10%R) c (SA _ _ MA) I); rewrite EC; reflexivity|]. split; [apply SA; exact MB|].
  split; [exists a; split; [apply SA; exact MA|exact EC]|].
  cbn [c w_lims p_qmin p_qmax p_ipos p_ivia p_ivel p_iacc]. split; [congruence|]. split; [congruence|]. split; [assumption|]. split; [assumption|]. split; [congruence|]. split; [congruence|]. split; [congruence|].
  split; [exact EC'|]. split; [exact EB'|]. split; [|split].
  - apply (pva_sat_full 1 1 c c' (v1 0) (v1 0)); try assumption; [lia|]. intros i Hi. assert (i = 0) by lia. subst i.
    apply (pos_only_row c (2 * 1)); try assumption; cbn [c w_lims p_qmin p_qmax p_via p_tds]; try congruence; try lra.
    rewrite PA2. apply PA.
  - intros H. rewrite (pva_sat name 1 1 10 b (v1 0) (v1 0) b' ltac:(lia) MB EB') in H. specialize (H 0 ltac:(lia)).
    apply (pos_only_row b (2 * 10)) in H; try assumption; try congruence; try lra. rewrite PB2. apply PB.
  - rewrite RA2, A2. cbn [v1 vget]. unfold pos_at. lra.
Qed.
(** ... and setTimeStep with twice the construction step changes nothing. *)
Theorem set_time_step_double name nv na dt (s : rpva) : na <= nv -> pmade steady name nv na dt s -> rstep s (@PDt Rnum (2 * dt)%R) = Ret s tt.
Proof.
  intros Hn M. destruct (pmade_inv _ _ _ _ _ Hn M) as (Hd & _ & _ & I3 & _). cbn [pva_step].
  replace (@nltb Rnum (@n0 Rnum) (2 * dt)%R) with true by (symmetry; apply Rltb_true; change (@n0 Rnum) with 0%R; lra).
  unfold w_lims. rewrite <- I3. destruct s; reflexivity.
Qed.
(** Limits that are switched off still act: joint at its upper limit, then all limits
    off. *)
Theorem disabled_limits_act name : exists (s1 s2 s3 : rpva), pmade steady name 1 1 1 s1 /\
  rstep s1 (PImpose false false false false) = Ret s2 tt /\ rstep s2 (PCompute (v1 0) (v1 0)) = Ret s3 tt /\
  ~ sat (p_c s3) (fun _ => 1%R).
Proof.
  destruct (pva_case name 1 (- 1) 1 1 1) as (z & MZ & NZ & Z1 & Z2 & _ & _ & _ & _ & _ & _ & PZ); [lra|].
  destruct (impose_step name 1 1 1 z true false false false MZ) as (a0 & _ & MA0 & NA0 & A1 & A2 & _ & _ & F1 & F2 & F3 & F4 & PA1 & PA2).
  rewrite NZ in NA0. rewrite Z1 in A1. rewrite Z2 in A2.
  destruct (pmade_inv name 1 1 1 a0 ltac:(lia) MA0) as (_ & _ & _ & I3 & I4 & _).
  assert (CP : exists s1, rstep a0 (PCompute (v1 1) (v1 0)) = Ret s1 tt /\ snd (p_pos s1 0) = 0%R /\ fst (p_pos s1 0) = (- 1)%R /\ p_via s1 0 = (mhuge, huge)).
  { cbn [pva_step]. unfold pva_compute. rewrite NA0, F1, F3, I3, I4, A1, A2. unfold vtail, vsegment. cbn [v1 vlen Nat.leb Nat.sub Nat.add obind].
    eexists. split; [reflexivity|]. cbn [p_pos p_via vget v1]. split; [|split].
    - rewrite pos_lim_up by lra. unfold up_lim. destruct (Rle_dec 0 0); [|lra]. match goal with |- ?a = ?b => change (@eq R a b) end. lra.
    - assert (X := pos_lim_low (2 * 1) (- 1) 1 1 0 ltac:(lra) ltac:(lra) ltac:(lra)). unfold up_lim in X. destruct (Rle_dec (- 0) 0); [|lra].
      match goal with |- ?a = ?b => change (@eq R a b); set (x := a) in * end. lra.
    - rewrite PA2. apply PZ. }
  destruct CP as (s1 & E1 & PU & PL & PV).
  assert (M1 := pmade_step _ _ _ _ _ a0 (PCompute (v1 1) (v1 0)) s1 MA0 I ltac:(rewrite E1; reflexivity)).
  destruct (impose_step name 1 1 1 s1 false false false false M1) as (s2 & E2 & M2 & N2 & _ & _ & _ & _ & G1 & G2 & G3 & G4 & P1 & P2).
  destruct (pmade_inv name 1 1 1 s2 ltac:(lia) M2) as (_ & J1 & _).
  destruct (pva_compute_ok s2 (v1 0) (v1 0)) as (s3 & E3 & _); [rewrite J1; cbn; lia|rewrite J1; cbn; lia|].
  exists s1, s2, s3. split; [exact M1|]. split; [exact E2|]. split; [exact E3|]. intros H.
  rewrite (pva_meaning name 1 1 1 s2 s3 (v1 0) (v1 0) ltac:(lia) M2 E3) in H.
  - specialize (H 0 ltac:(lia)). unfold imposed_any in H. rewrite G1, P1 in H. unfold within in H. rewrite PU in H. lra.
  - intros i _ X. congruence.
  - intros i Hi. assert (i = 0) by lia. subst i. exists 0%R. unfold imposed_any. rewrite G1, G2, G3, G4, P1, P2, PV. unfold within. rewrite PU, PL. cbn [fst snd].
    rewrite huge_R, mhuge_R. lra.
Qed.
