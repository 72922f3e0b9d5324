(** Properties C34-C39, C56, C57, C73: the joint limit tasks.  Only statements; the proofs
    are in JointReal.v, JointLimits.v, JointViab.v, JointTask.v, JointPva.v,
    JointMaskSize.v, JointRefute.v and JointSetters.v.
    [jmade name nv na s]: [s] is a TaskJointBounds reached by any calls;
    [pmade P name nv na dt s]: [s] is a TaskJointPosVelAccBounds constructed with [dt]
    and reached by calls satisfying [P] ([steady]: everything except setTimeStep and
    masks that switch joints off).  [last_of na v i] is entry [i] of the last [na]. *)
From Coq Require Import String List Arith Bool ZArith Reals Lia Lra.
From Verif Require Import Scalar Outcome Linalg Constraint FormPhysSpec SolverSpec Masks MaskReal JointBounds JointSpec JointReal JointLimits JointViab JointTask JointPva JointMaskSize JointRefute JointSetters.
Import List.ListNotations.
Open Scope nat_scope.

(** ** C34 next velocity and acceleration inside their bounds *)
Theorem C34_meaning : forall name nv na (s s' : jb Rnum) v, na <= nv -> jmade name nv na s ->
  jb_step s (JCompute v) = Ret s' tt -> forall y, sat (b_c s') y <->
  (forall r, r < nv - na -> (- 10 ^ 10 <= y r <= 10 ^ 10)%R) /\
  forall i, i < na ->
    (vget (b_vlb s) i <= last_of na v i + b_dt s * y (nv - na + i)%nat <= vget (b_vub s) i)%R /\
    (vget (b_alb s) i <= y (nv - na + i)%nat <= vget (b_aub s) i)%R.
Proof. exact jb_meaning. Qed.
Print Assumptions C34_meaning.
Theorem C34_defined : forall (K : num) name nv na (s : jb K) v, na <= nv -> jmade name nv na s -> na <= vlen v ->
  exists s', jb_step s (JCompute v) = Ret s' tt /\ jrow s v (b_c s') /\ same_params s s' /\ jmade name nv na s'.
Proof. exact @jb_computes. Qed.
Print Assumptions C34_defined.
Example C34_case : forall name, exists (s s' : jb Rnum), jmade name 1 1 s /\ jb_step s (JCompute (v1 (1 / 2))) = Ret s' tt /\
  sat (b_c s') (fun _ => (1 / 2)%R) /\ ~ sat (b_c s') (fun _ => (3 / 4)%R).
Proof.
  intros name. destruct (jb_case name) as (s & M & D & A1 & A2 & A3 & A4).
  destruct (jb_computes name 1 1 s (v1 (1 / 2))) as (s' & E & _); [lia|exact M|cbn; lia|].
  exists s, s'. split; [exact M|]. split; [exact E|]. split.
  - apply (C34_meaning name 1 1 s s' _ ltac:(lia) M E). split; [intros r Hr; lia|]. intros i Hi. rewrite A1, A2, A3, A4, D, last_v1 by lia. cbn [v1 vget]. lra.
  - intros H. apply (C34_meaning name 1 1 s s' _ ltac:(lia) M E) in H as [_ H]. specialize (H 0 ltac:(lia)). rewrite A1, A2, A3, A4, D, last_v1 in H by lia. cbn [v1 vget] in H. lra.
Qed.
(** Each setter stores its arguments, and only those; invalid arguments throw and change
    nothing. *)
Theorem C34_setters : forall (K : num) name nv na (s : jb K), na <= nv -> jmade name nv na s ->
  (forall dt, (n0 <? dt)%num = true -> exists s', jb_step s (JDt dt) = Ret s' tt /\
     jb_view s' = (dt, (b_vlb s, b_vub s), (b_alb s, b_aub s)) /\ b_c s' = b_c s) /\
  (forall dt, (n0 <? dt)%num = false -> jb_step s (JDt dt) = Exc s) /\
  (forall l u, vlen l = na -> vlen u = na -> exists s', jb_step s (JVel l u) = Ret s' tt /\
     jb_view s' = (b_dt s, (l, u), (b_alb s, b_aub s)) /\ b_c s' = b_c s) /\
  (forall l u, vlen l = na -> vlen u = na -> exists s', jb_step s (JAcc l u) = Ret s' tt /\
     jb_view s' = (b_dt s, (b_vlb s, b_vub s), (l, u)) /\ b_c s' = b_c s) /\
  (forall l u, vlen l <> na \/ vlen u <> na -> jb_step s (JVel l u) = Exc s /\ jb_step s (JAcc l u) = Exc s) /\
  (forall m, jb_step s (JMask m) = Ret s tt).
Proof. exact jb_setters. Qed.
Print Assumptions C34_setters.
Theorem C34_initial : forall name nv na (dt : Rnum),
  ((dt <= 0)%R -> jb_new name nv na dt = None) /\
  ((0 < dt)%R -> exists s0, jb_new name nv na dt = Some s0 /\ b_dt s0 = dt /\ b_na s0 = na /\
     forall i, (vget (b_vlb s0) i = - 10 ^ 10 /\ vget (b_vub s0) i = 10 ^ 10 /\
                vget (b_alb s0) i = - 10 ^ 10 /\ vget (b_aub s0) i = 10 ^ 10)%R).
Proof. exact jb_initial. Qed.
Print Assumptions C34_initial.

(** ** C35 crossing bounds *)
Theorem C35_interval : forall name nv na (s s' : jb Rnum) v i, na <= nv -> jmade name nv na s ->
  jb_step s (JCompute v) = Ret s' tt -> i < na ->
  (vget (b_vlb s) i <= vget (b_vub s) i)%R -> (vget (b_alb s) i <= vget (b_aub s) i)%R ->
  ((vget (c_lb (b_c s')) (nv - na + i)%nat <= vget (c_ub (b_c s')) (nv - na + i)%nat)%R <->
   (vget (b_vlb s) i - b_dt s * vget (b_aub s) i <= last_of na v i <= vget (b_vub s) i - b_dt s * vget (b_alb s) i)%R).
Proof. exact jb_interval. Qed.
Print Assumptions C35_interval.
Theorem C35_refuted : forall name, exists (s s' : jb Rnum) v, jmade name 1 1 s /\ jb_step s (JCompute v) = Ret s' tt /\
  (vget (b_vlb s) 0 <= vget (b_vub s) 0)%R /\ (vget (b_alb s) 0 <= vget (b_aub s) 0)%R /\
  (vget (c_ub (b_c s')) 0 < vget (c_lb (b_c s')) 0)%R /\ forall y, ~ sat (b_c s') y.
Proof. exact jb_crossed. Qed.
Print Assumptions C35_refuted.

(** ** C36 never an inverted interval *)
Theorem C36_ordered : forall (K : num) (sq : K -> K) toZ (s s' : pva K) q v, (forall t : K, (t <? t)%num = false) ->
  pva_step sq toZ s (PCompute q v) = Ret s' tt ->
  vlen (c_lb (p_c s')) = p_na s /\ vlen (c_ub (p_c s')) = p_na s /\
  forall i, (vget (c_ub (p_c s')) i <? vget (c_lb (p_c s')) i)%num = false.
Proof. exact @pva_ordered. Qed.
Print Assumptions C36_ordered.
Example C36_case : forall t : Rnum, (t <? t)%num = false.
Proof. intros t. apply Rltb_false. lra. Qed.
Example C36_case_compute : forall name, exists (s s' : rpva) q v, pmade steady name 1 1 1 s /\ pva_step rsqrt Rtrunc s (PCompute q v) = Ret s' tt.
Proof.
  intros name. destruct (pva_case name 1 0 1 1 1) as (s & M & N & _); [lra|].
  destruct (pva_compute_ok s (v1 0) (v1 0)) as (s' & E & _); [rewrite N; cbn; lia|rewrite N; cbn; lia|]. exists s, s', (v1 0), (v1 0). auto.
Qed.
(** What remains of conflicting limits: [p_pos], [p_via] hold the position and viability
    limits (m_ddqLBPos, m_ddqUBPos, m_ddqLBVia, m_ddqUBVia). *)
Theorem C36_conflict : forall (s s' : rpva) q v i l u, pva_step rsqrt Rtrunc s (PCompute q v) = Ret s' tt ->
  let pos := p_pos s' i in let via := p_via s' i in
  let vel := vel_range s i (last_of (p_na s) v i) in let acc := acc_range s i in
  greatest [fst pos; fst via; fst vel; fst acc] l -> least [snd pos; snd via; snd vel; snd acc] u ->
  ((l <= u)%R -> vget (c_lb (p_c s')) i = l /\ vget (c_ub (p_c s')) i = u) /\
  ((u < l)%R -> u = snd pos -> vget (c_lb (p_c s')) i = u /\ vget (c_ub (p_c s')) i = u) /\
  ((u < l)%R -> u <> snd pos -> vget (c_lb (p_c s')) i = l /\ vget (c_ub (p_c s')) i = l).
Proof. exact pva_conflict. Qed.
Print Assumptions C36_conflict.
(** Even then all velocity and acceleration limits of one side hold. *)
Theorem C36_one_side : forall name nv na dt (s s' : rpva) q v, na <= nv -> pmade steady name nv na dt s ->
  pva_step rsqrt Rtrunc s (PCompute q v) = Ret s' tt -> forall y, sat (p_c s') y -> forall i, i < na ->
  let a := y (nv - na + i) in
  ((p_ivel s = true -> last_of na v i + 2 * dt * a <= vget (p_dqmax s) i) /\ (p_iacc s = true -> a <= vget (p_ddqmax s) i))%R \/
  ((p_ivel s = true -> - vget (p_dqmax s) i <= last_of na v i + 2 * dt * a) /\ (p_iacc s = true -> - vget (p_ddqmax s) i <= a))%R.
Proof. exact pva_one_side. Qed.
Print Assumptions C36_one_side.
Example C36_case_conflict : forall name, exists (s s' : rpva) q v l u, pmade steady name 1 1 1 s /\ pva_step rsqrt Rtrunc s (PCompute q v) = Ret s' tt /\
  let pos := p_pos s' 0 in let via := p_via s' 0 in
  let vel := vel_range s 0 (last_of (p_na s) v 0) in let acc := acc_range s 0 in
  greatest [fst pos; fst via; fst vel; fst acc] l /\ least [snd pos; snd via; snd vel; snd acc] u /\ (u < l)%R.
Proof. exact conflict_case. Qed.

(** ** C37 position limits during the whole step *)
Theorem C37_position : forall name nv na dt (s s' : rpva) (q v : vec Rnum), na <= nv -> pmade steady name nv na dt s ->
  pva_step rsqrt Rtrunc s (PCompute q v) = Ret s' tt -> p_ipos s = true ->
  (forall i, i < na -> p_ivia s = true -> (0 <= vget (p_ddqmax s) i)%R) ->
  (forall i, i < na -> exists a, imposed_any s (2 * dt) i (last_of na q i) (last_of na v i) a) ->
  forall y i, sat (p_c s') y -> i < na ->
    stays (vget (p_qmin s) i) (vget (p_qmax s) i) (last_of na q i) (last_of na v i) (y (nv - na + i)%nat) (2 * dt).
Proof. exact pva_positions. Qed.
Print Assumptions C37_position.
(** The constraint asks for nothing else than the imposed limits. *)
Theorem C37_exact : forall name nv na dt (s s' : rpva) (q v : vec Rnum), na <= nv -> pmade steady name nv na dt s ->
  pva_step rsqrt Rtrunc s (PCompute q v) = Ret s' tt ->
  (forall i, i < na -> p_ivia s = true -> (0 <= vget (p_ddqmax s) i)%R) ->
  (forall i, i < na -> exists a, imposed_any s (2 * dt) i (last_of na q i) (last_of na v i) a) ->
  forall y, sat (p_c s') y <-> forall i, i < na -> imposed_any s (2 * dt) i (last_of na q i) (last_of na v i) (y (nv - na + i)).
Proof. exact pva_meaning. Qed.
Print Assumptions C37_exact.
(** Each setter stores its arguments and switches on the limits it sets. *)
Theorem C37_setters : forall (K : num) (sq : K -> K) toZ (s : pva K),
  (forall l u, vlen l = p_na s -> vlen u = p_na s -> exists s', pva_step sq toZ s (PPos l u) = Ret s' tt /\ pva_rest s s' /\
     pva_view s' = ((l, u, p_dqmax s, p_ddqmax s), (true, p_ivel s, true, p_iacc s))) /\
  (forall u, vlen u = p_na s -> exists s', pva_step sq toZ s (PVel u) = Ret s' tt /\ pva_rest s s' /\
     pva_view s' = ((p_qmin s, p_qmax s, u, p_ddqmax s), (p_ipos s, true, p_ivia s, p_iacc s))) /\
  (forall u, vlen u = p_na s -> exists s', pva_step sq toZ s (PAcc u) = Ret s' tt /\ pva_rest s s' /\
     pva_view s' = ((p_qmin s, p_qmax s, p_dqmax s, u), (p_ipos s, p_ivel s, p_ivia s, true))) /\
  (forall a b c d, exists s', pva_step sq toZ s (PImpose a b c d) = Ret s' tt /\ pva_rest s s' /\
     pva_view s' = ((p_qmin s, p_qmax s, p_dqmax s, p_ddqmax s), (a, b, c, d))) /\
  (forall b, pva_step sq toZ s (PVerbose b) = Ret s tt) /\
  (forall l u, vlen l <> p_na s \/ vlen u <> p_na s -> pva_step sq toZ s (PPos l u) = Exc s) /\
  (forall u, vlen u <> p_na s -> pva_step sq toZ s (PVel u) = Exc s /\ pva_step sq toZ s (PAcc u) = Exc s) /\
  (forall jk m, vlen m <> p_na s -> pva_step sq toZ s (PMask jk m) = Exc s) /\
  (forall dt, (n0 <? dt)%num = false -> pva_step sq toZ s (PDt dt) = Exc s) /\
  (forall dt, (n0 <? dt)%num = true -> exists s', pva_step sq toZ s (PDt dt) = Ret s' tt /\ p_dt s' = dt /\
     pva_view s' = pva_view s /\ p_c s' = p_c s).
Proof. exact pva_setters. Qed.
Print Assumptions C37_setters.
(** A new task imposes nothing. *)
Theorem C37_initial : forall jk name nv na (dt : Rnum),
  ((dt <= 0)%R -> @pva_new Rnum Rtrunc jk name nv na dt = Some None) /\
  ((0 < dt)%R -> na <= nv -> exists s0, @pva_new Rnum Rtrunc jk name nv na dt = Some (Some s0) /\ p_dt s0 = (2 * dt)%R /\
     snd (pva_view s0) = (false, false, false, false) /\
     forall i, (vget (p_qmin s0) i = - 10 ^ 10 /\ vget (p_qmax s0) i = 10 ^ 10 /\ vget (p_dqmax s0) i = 10 ^ 10 /\ vget (p_ddqmax s0) i = 10 ^ 10)%R).
Proof. exact pva_initial. Qed.
Print Assumptions C37_initial.
Example C37_case : forall name, exists (s : rpva), pmade steady name 1 1 (1 / 2) s /\ p_ipos s = true /\ (0 <= vget (p_ddqmax s) 0)%R /\
  exists a, imposed_any s (2 * (1 / 2)) 0 (1 / 2) (1 / 4) a.
Proof.
  intros name. destruct (pva_case name (1 / 2) 0 1 1 1) as (s & M & N & Q1 & Q2 & Q3 & Q4 & F1 & F2 & F3 & F4 & _); [lra|].
  exists s. split; [exact M|]. split; [exact F1|]. rewrite Q4. cbn [v1 vget]. split; [lra|].
  exists (- (1 / 4))%R. unfold imposed_any. rewrite F1, F2, F3, F4, Q1, Q2, Q3, Q4. cbn [v1 vget]. unfold stays, via_ok, vel_at, pos_at.
  split; [intros t Ht; nra|lra].
Qed.

(** ** C38 safe for ever *)
Theorem C38_closed_loop : forall name nv na dt (s s' : rpva) (q v q' v' : vec Rnum), na <= nv -> pmade steady name nv na dt s ->
  p_ipos s = true -> p_ivia s = true -> (forall i, i < na -> roomy s (2 * dt) i) ->
  na <= vlen q -> na <= vlen v -> safe_state s na q v ->
  controlled nv na (2 * dt) (s, q, v) (s', q', v') ->
  safe_state s na q' v' /\
  exists s2, pva_step rsqrt Rtrunc s' (PCompute q' v') = Ret s2 tt /\ (exists y, sat (p_c s2) y) /\
    forall y i, sat (p_c s2) y -> i < na ->
      stays (vget (p_qmin s) i) (vget (p_qmax s) i) (last_of na q' i) (last_of na v' i) (y (nv - na + i)) (2 * dt).
Proof. exact closed_loop_safe. Qed.
Print Assumptions C38_closed_loop.
(** Viability limits without position limits do not keep the joint in its range. *)
Theorem C38_viability_alone_refuted : forall name, exists (s s' : rpva) q' v', pmade steady name 1 1 5 s /\
  p_ipos s = false /\ p_ivia s = true /\ p_ivel s = true /\ p_iacc s = true /\ (forall i, i < 1 -> roomy s (2 * 5) i) /\
  safe_state s 1 (v1 (1 / 2)) (v1 1) /\
  controlled 1 1 5 (s, v1 (1 / 2), v1 1) (s', q', v') /\ (vget (p_qmax s) 0 < last_of 1 q' 0)%R.
Proof. exact viability_alone_leaves. Qed.
Print Assumptions C38_viability_alone_refuted.
(** Nor do all limits together if the range is narrower than A (2 dt)^2. *)
Theorem C38_narrow_refuted : forall name, exists (s s' : rpva) q' v', pmade steady name 1 1 1 s /\
  p_ipos s = true /\ p_ivia s = true /\ p_ivel s = true /\ p_iacc s = true /\ safe_state s 1 (v1 0) (v1 (2 / 5)) /\
  controlled 1 1 1 (s, v1 0, v1 (2 / 5)) (s', q', v') /\ (last_of 1 q' 0 < vget (p_qmin s) 0)%R.
Proof. exact narrow_leaves. Qed.
Print Assumptions C38_narrow_refuted.
(** A joint with range 2, A = 1, dt = 1/2, moving towards its limit. *)
Example C38_case : forall name, exists (s : rpva), pmade steady name 1 1 (1 / 2) s /\ p_ipos s = true /\ p_ivia s = true /\
  (forall i, i < 1 -> roomy s (2 * (1 / 2)) i) /\ safe_state s 1 (v1 (1 / 2)) (v1 1).
Proof.
  intros name. destruct (pva_case name (1 / 2) (- 1) 1 1 1) as (s & M & N & Q1 & Q2 & Q3 & Q4 & F1 & F2 & F3 & F4 & _); [lra|].
  exists s. split; [exact M|]. split; [exact F1|]. split; [exact F2|]. split.
  - intros i Hi. unfold roomy. rewrite F3, Q1, Q2, Q3, Q4. cbn [v1 vget]. repeat split; try lra.
  - intros i Hi. assert (i = 0) by lia. subst i. rewrite Q1, Q2, Q3, Q4, !last_v1 by lia. cbn [v1 vget]. split; [|lra].
    apply stoppable_iff; [lra|]. unfold brake. lra.
Qed.

(** ** C39 changing the time step *)
Theorem C39_joint_bounds : forall (K : num) name nv na dt (s s1 s2 : jb K) v s1' s2', na <= nv -> jmade name nv na s ->
  jb_step s (JDt dt) = Ret s1 tt -> jmade_dt name nv na dt s2 ->
  b_vlb s = b_vlb s2 -> b_vub s = b_vub s2 -> b_alb s = b_alb s2 -> b_aub s = b_aub s2 ->
  jb_step s1 (JCompute v) = Ret s1' tt -> jb_step s2 (JCompute v) = Ret s2' tt ->
  c_kind (b_c s1') = c_kind (b_c s2') /\ c_mat (b_c s1') = c_mat (b_c s2') /\
  veq (c_lb (b_c s1')) (c_lb (b_c s2')) /\ veq (c_ub (b_c s1')) (c_ub (b_c s2')).
Proof. exact @jb_set_time_step. Qed.
Print Assumptions C39_joint_bounds.
(** TaskJointPosVelAccBounds: constructed with 1 and set to 10, against constructed with
    10; the acceleration it admits leaves the position limits within 10 seconds. *)
Theorem C39_posvelacc_refuted : forall name, exists (s1 s2 s1' s2' : rpva) y,
  pmade any_op name 1 1 1 s1 /\ pmade any_op name 1 1 10 s2 /\
  (exists s0, pmade any_op name 1 1 1 s0 /\ pva_step rsqrt Rtrunc s0 (@PDt Rnum 10%R) = Ret s1 tt) /\
  p_qmin s1 = p_qmin s2 /\ p_qmax s1 = p_qmax s2 /\ p_ipos s1 = true /\ p_ipos s2 = true /\ p_ivia s1 = p_ivia s2 /\ p_ivel s1 = p_ivel s2 /\ p_iacc s1 = p_iacc s2 /\
  pva_step rsqrt Rtrunc s1 (PCompute (v1 0) (v1 0)) = Ret s1' tt /\ pva_step rsqrt Rtrunc s2 (PCompute (v1 0) (v1 0)) = Ret s2' tt /\
  sat (p_c s1') y /\ ~ sat (p_c s2') y /\ (vget (p_qmax s1) 0 < pos_at 0 0 (y 0%nat) 10)%R.
Proof. exact set_time_step_differs. Qed.
Print Assumptions C39_posvelacc_refuted.
Theorem C39_posvelacc_double : forall name nv na dt (s : rpva), na <= nv -> pmade steady name nv na dt s ->
  pva_step rsqrt Rtrunc s (@PDt Rnum (2 * dt)%R) = Ret s tt.
Proof. exact set_time_step_double. Qed.
Print Assumptions C39_posvelacc_double.
Example C39_case : forall name, exists s s1 s2 : jb Rnum, jmade name 1 1 s /\ jb_step s (@JDt Rnum 2%R) = Ret s1 tt /\ jmade_dt name 1 1 (2%R : Rnum) s2 /\
  b_dt s <> b_dt s2 /\ b_vlb s = b_vlb s2 /\ b_vub s = b_vub s2 /\ b_alb s = b_alb s2 /\ b_aub s = b_aub s2.
Proof.
  intros name. assert (H : forall d : R, (0 < d)%R -> @jb_new Rnum name 1 1 d <> None).
  { intros d Hd. unfold jb_new. replace (@nltb Rnum (@n0 Rnum) d) with true by (symmetry; apply Rltb_true; exact Hd). discriminate. }
  destruct (@jb_new Rnum name 1 1 1%R) as [s|] eqn:E1; [|destruct (H 1%R ltac:(lra) E1)].
  destruct (@jb_new Rnum name 1 1 2%R) as [s2|] eqn:E2; [|destruct (H 2%R ltac:(lra) E2)].
  eexists s, _, s2. split; [exists 1%R, s; split; [exact E1|apply reach_init]|]. split.
  { cbn [jb_step]. replace (@nltb Rnum (@n0 Rnum) 2%R) with true by (symmetry; apply Rltb_true; change (@n0 Rnum) with 0%R; lra). reflexivity. }
  split; [exists s2; split; [exact E2|apply reach_init]|].
  unfold jb_new in E1, E2. match type of E1 with (if ?b then _ else _) = _ => destruct b; [|discriminate] end.
  match type of E2 with (if ?b then _ else _) = _ => destruct b; [|discriminate] end.
  injection E1 as <-. injection E2 as <-. cbn [b_dt b_vlb b_vub b_alb b_aub]. split; [intros X; assert (1 = 2)%R by exact X; lra|]. auto.
Qed.

(** ** C56 sizes of the constraint with a mask *)
Theorem C56_sizes : forall name nv na dt (s : rpva) jk m q v, na <= nv -> pmade any_op name nv na dt s ->
  vlen m = na -> mask01 m -> na <= vlen q -> na <= vlen v ->
  exists s1 s2, pva_step rsqrt Rtrunc s (PMask jk m) = Ret s1 tt /\ pva_step rsqrt Rtrunc s1 (PCompute q v) = Ret s2 tt /\
    @selects Rnum (nv - na) (fun _ => 1%R) (actives m) (c_mat (p_c s2)) /\ (cwf nv (p_c s2) <-> ones m).
Proof. exact mask_sizes. Qed.
Print Assumptions C56_sizes.
(** Hence any mask with a zero gives a malformed constraint. *)
Theorem C56_refuted : forall name nv na dt (s : rpva) jk (m q v : vec Rnum) i, na <= nv -> pmade any_op name nv na dt s ->
  vlen m = na -> mask01 m -> na <= vlen q -> na <= vlen v -> i < na -> vget m i = 0%R ->
  exists s1 s2, pva_step rsqrt Rtrunc s (PMask jk m) = Ret s1 tt /\ pva_step rsqrt Rtrunc s1 (PCompute q v) = Ret s2 tt /\
    ~ cwf nv (p_c s2).
Proof. exact mask_zero. Qed.
Print Assumptions C56_refuted.
Example C56_case : forall name, exists s : rpva, pmade any_op name 1 1 1 s /\ @mask01 Rnum (v1 0) /\ vget (v1 0) 0 = 0%R.
Proof.
  intros name. destruct (pva_new_ok (fun _ => 0) name 1 1 1) as (s & E & _); [lia|lra|]. exists s.
  split; [exists (fun _ => 0), s; split; [exact E|apply reach_init]|]. split; [|reflexivity]. intros i _. left. apply Reqb_true. reflexivity.
Qed.

(** ** C57 limits that are switched off: see C37_exact for velocity and acceleration
    (only 1e10 remains); the last computed position and viability limits stay *)
Theorem C57_disabled_refuted : forall name, exists (s1 s2 s3 : rpva), pmade steady name 1 1 1 s1 /\
  pva_step rsqrt Rtrunc s1 (PImpose false false false false) = Ret s2 tt /\ pva_step rsqrt Rtrunc s2 (PCompute (v1 0) (v1 0)) = Ret s3 tt /\
  ~ sat (p_c s3) (fun _ => 1%R).
Proof. exact disabled_limits_act. Qed.
Print Assumptions C57_disabled_refuted.

(** ** C73 the warning about states that are not viable.  [warned s' i]: compute, in
    verbose mode, prints the warning for joint [i]; [exceeds e ...]: some limit is exceeded
    by more than [e]. *)
Theorem C73_no_false_alarm : forall (s s' : rpva) q v i, pva_step rsqrt Rtrunc s (PCompute q v) = Ret s' tt ->
  (0 <= vget (p_ddqmax s) i)%R ->
  stoppable (vget (p_ddqmax s) i) (vget (p_qmin s) i) (vget (p_qmax s) i) (last_of (p_na s) q i) (last_of (p_na s) v i) ->
  (Rabs (last_of (p_na s) v i) <= vget (p_dqmax s) i)%R -> (p_viol s' i <= 0)%R /\ ~ warned s' i.
Proof. exact viab_sound. Qed.
Print Assumptions C73_no_false_alarm.
Theorem C73_exact : forall (s s' : rpva) q v i, pva_step rsqrt Rtrunc s (PCompute q v) = Ret s' tt ->
  (0 <= vget (p_ddqmax s) i)%R ->
  let qi := last_of (p_na s) q i in let vi := last_of (p_na s) v i in
  let dn := (- stop_speed (vget (p_ddqmax s) i) (qi - vget (p_qmin s) i))%R in
  (vi < dn - / 10 ^ 10 \/ dn + / 10 ^ 10 <= vi)%R ->
  (warned s' i <-> exceeds (/ 10 ^ 10) (vget (p_qmin s) i) (vget (p_qmax s) i) (vget (p_dqmax s) i) (vget (p_ddqmax s) i) qi vi).
Proof. exact viab_exact. Qed.
Print Assumptions C73_exact.
(** [stop_speed A d] is the largest speed that [A] brakes within [d]. *)
Theorem C73_stop_speed : forall A d v, (0 <= A -> 0 <= d -> 0 <= v -> (v <= stop_speed A d <-> v * v <= 2 * A * d))%R.
Proof. exact stop_speed_max. Qed.
Print Assumptions C73_stop_speed.
(** Near the lower braking limit nothing is reported, whatever is exceeded. *)
Theorem C73_masked : forall (s s' : rpva) q v i, pva_step rsqrt Rtrunc s (PCompute q v) = Ret s' tt ->
  (0 <= vget (p_ddqmax s) i)%R ->
  let qi := last_of (p_na s) q i in let vi := last_of (p_na s) v i in
  let dn := (- stop_speed (vget (p_ddqmax s) i) (qi - vget (p_qmin s) i))%R in
  (dn - / 10 ^ 10 <= vi < dn + / 10 ^ 10)%R -> ~ warned s' i.
Proof. exact viab_masked. Qed.
Print Assumptions C73_masked.
(** A joint at rest any distance below its range: not reported; as far above its range, or
    moving, it is. *)
Theorem C73_refuted : forall name d, (0 < d)%R -> (/ 10 ^ 10 < d)%R -> exists (s s1 s2 s3 : rpva), pmade steady name 1 1 1 s /\
  vget (p_qmin s) 0 = 0%R /\ vget (p_qmax s) 0 = 1%R /\ vget (p_ddqmax s) 0 = 1%R /\
  pva_step rsqrt Rtrunc s (PCompute (v1 (- d)) (v1 0)) = Ret s1 tt /\
  exceeds (/ 10 ^ 10) (vget (p_qmin s) 0) (vget (p_qmax s) 0) (vget (p_dqmax s) 0) (vget (p_ddqmax s) 0) (- d) 0 /\
  ~ stoppable (vget (p_ddqmax s) 0) (vget (p_qmin s) 0) (vget (p_qmax s) 0) (- d) 0 /\ ~ warned s1 0 /\
  pva_step rsqrt Rtrunc s (PCompute (v1 (1 + d)) (v1 0)) = Ret s2 tt /\ warned s2 0 /\
  pva_step rsqrt Rtrunc s (PCompute (v1 (- d)) (v1 1)) = Ret s3 tt /\ warned s3 0.
Proof. exact viab_below. Qed.
Print Assumptions C73_refuted.
