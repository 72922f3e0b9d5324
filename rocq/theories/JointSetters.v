(** Setters and initial values of the joint limit tasks, conflicting limits, and the
    viability check. *)
From Coq Require Import String List Arith Bool ZArith QArith Reals Lia Lra Psatz.
From Verif Require Import Scalar Outcome Linalg Constraint FormPhysSpec RSum Masks MaskReal JointBounds JointSpec JointReal JointLimits JointViab JointTask JointPva JointRefute.
Import ListNotations.
Open Scope nat_scope.

(** ** TaskJointBounds *)
(** What a user sees of the parameters: time step, velocity bounds, acceleration bounds. *)
Definition jb_view {K : num} (s : jb K) : K * (vec K * vec K) * (vec K * vec K) :=
  (b_dt s, (b_vlb s, b_vub s), (b_alb s, b_aub s)).
Theorem jb_setters (K : num) name nv na (s : jb K) : na <= nv -> jmade name nv na s ->
  (forall dt, (n0 <? dt)%num = true -> exists s', jb_step s (JDt dt) = Ret s' tt /\
     jb_view s' = (dt, (b_vlb s, b_vub s), (b_alb s, b_aub s)) /\ b_c s' = b_c s) /\
  (forall dt, (n0 <? dt)%num = false -> jb_step s (JDt dt) = Exc s) /\
  (forall l u, vlen l = na -> vlen u = na -> exists s', jb_step s (JVel l u) = Ret s' tt /\
     jb_view s' = (b_dt s, (l, u), (b_alb s, b_aub s)) /\ b_c s' = b_c s) /\
  (forall l u, vlen l = na -> vlen u = na -> exists s', jb_step s (JAcc l u) = Ret s' tt /\
     jb_view s' = (b_dt s, (b_vlb s, b_vub s), (l, u)) /\ b_c s' = b_c s) /\
  (forall l u, vlen l <> na \/ vlen u <> na -> jb_step s (JVel l u) = Exc s /\ jb_step s (JAcc l u) = Exc s) /\
  (forall m, jb_step s (JMask m) = Ret s tt).
Proof.
  intros Hn M. assert (N : b_na s = na) by (destruct (jmade_inv name nv na s Hn M) as [N _]; exact N).
  cbn [jb_step]. rewrite N. repeat split.
  - intros dt ->. eexists. repeat split.
  - intros dt ->. reflexivity.
  - intros l u -> ->. rewrite Nat.eqb_refl. eexists. repeat split.
  - intros l u -> ->. rewrite Nat.eqb_refl. eexists. repeat split.
  - destruct (vlen l =? na) eqn:E1; [|reflexivity]. destruct (vlen u =? na) eqn:E2; [|reflexivity].
    apply Nat.eqb_eq in E1, E2. exfalso. destruct H; contradiction.
  - destruct (vlen l =? na) eqn:E1; [|reflexivity]. destruct (vlen u =? na) eqn:E2; [|reflexivity].
    apply Nat.eqb_eq in E1, E2. exfalso. destruct H; contradiction.
Qed.
Theorem jb_initial name nv na (dt : Rnum) :
  ((dt <= 0)%R -> jb_new name nv na dt = None) /\
  ((0 < dt)%R -> exists s0, jb_new name nv na dt = Some s0 /\ b_dt s0 = dt /\ b_na s0 = na /\
     forall i, (vget (b_vlb s0) i = - 10 ^ 10 /\ vget (b_vub s0) i = 10 ^ 10 /\
                vget (b_alb s0) i = - 10 ^ 10 /\ vget (b_aub s0) i = 10 ^ 10)%R).
Proof.
  unfold jb_new. change (@nltb Rnum n0 dt) with (Rltb 0 dt). split; intros H.
  - assert (E : Rltb 0 dt = false) by (apply Rltb_false; exact H). rewrite E. reflexivity.
  - assert (E : Rltb 0 dt = true) by (apply Rltb_true; exact H). rewrite E. eexists. split; [reflexivity|].
    cbn [b_dt b_na b_vlb b_vub b_alb b_aub vget]. rewrite huge_R, mhuge_R. cbn [Rnum nmul n1]. repeat split; lra.
Qed.

(** ** TaskJointPosVelAccBounds *)
Definition pva_view {K : num} (s : pva K) : (vec K * vec K * vec K * vec K) * (bool * bool * bool * bool) :=
  ((p_qmin s, p_qmax s, p_dqmax s, p_ddqmax s), (p_ipos s, p_ivel s, p_ivia s, p_iacc s)).
(** Everything but the limits and the flags. *)
Definition pva_rest {K : num} (s s' : pva K) : Prop :=
  p_na s' = p_na s /\ p_nv s' = p_nv s /\ p_c s' = p_c s /\ p_mask s' = p_mask s /\ p_dt s' = p_dt s.
Theorem pva_setters (K : num) (sq : K -> K) toZ (s : pva K) :
  (forall l u, vlen l = p_na s -> vlen u = p_na s -> exists s', pva_step sq toZ s (PPos l u) = Ret s' tt /\ pva_rest s s' /\
     pva_view s' = ((l, u, p_dqmax s, p_ddqmax s), (true, p_ivel s, true, p_iacc s))) /\
  (forall u, vlen u = p_na s -> exists s', pva_step sq toZ s (PVel u) = Ret s' tt /\ pva_rest s s' /\
     pva_view s' = ((p_qmin s, p_qmax s, u, p_ddqmax s), (p_ipos s, true, p_ivia s, p_iacc s))) /\
  (forall u, vlen u = p_na s -> exists s', pva_step sq toZ s (PAcc u) = Ret s' tt /\ pva_rest s s' /\
     pva_view s' = ((p_qmin s, p_qmax s, p_dqmax s, u), (p_ipos s, p_ivel s, p_ivia s, true))) /\
  (forall a b c d, exists s', pva_step sq toZ s (PImpose a b c d) = Ret s' tt /\ pva_rest s s' /\
     pva_view s' = ((p_qmin s, p_qmax s, p_dqmax s, p_ddqmax s), (a, b, c, d))) /\
  (forall b, pva_step sq toZ s (PVerbose b) = Ret s tt) /\
  (forall l u, vlen l <> p_na s \/ vlen u <> p_na s -> pva_step sq toZ s (PPos l u) = Exc s) /\
  (forall u, vlen u <> p_na s -> pva_step sq toZ s (PVel u) = Exc s /\ pva_step sq toZ s (PAcc u) = Exc s) /\
  (forall jk m, vlen m <> p_na s -> pva_step sq toZ s (PMask jk m) = Exc s) /\
  (forall dt, (n0 <? dt)%num = false -> pva_step sq toZ s (PDt dt) = Exc s) /\
  (forall dt, (n0 <? dt)%num = true -> exists s', pva_step sq toZ s (PDt dt) = Ret s' tt /\ p_dt s' = dt /\
     pva_view s' = pva_view s /\ p_c s' = p_c s).
Proof.
  cbn [pva_step]. repeat split.
  - intros l u -> ->. rewrite Nat.eqb_refl. eexists. repeat split.
  - intros u ->. rewrite Nat.eqb_refl. eexists. repeat split.
  - intros u ->. rewrite Nat.eqb_refl. eexists. repeat split.
  - intros a b c d. eexists. repeat split.
  - intros l u H. destruct (vlen l =? p_na s) eqn:E1; [|reflexivity]. destruct (vlen u =? p_na s) eqn:E2; [|reflexivity].
    apply Nat.eqb_eq in E1, E2. exfalso. destruct H; contradiction.
  - apply Nat.eqb_neq in H. rewrite H. reflexivity.
  - apply Nat.eqb_neq in H. rewrite H. reflexivity.
  - intros jk m H. apply Nat.eqb_neq in H. rewrite H. reflexivity.
  - intros dt ->. reflexivity.
  - intros dt ->. eexists. repeat split.
Qed.
Theorem pva_initial jk name nv na (dt : Rnum) :
  ((dt <= 0)%R -> @pva_new Rnum Rtrunc jk name nv na dt = Some None) /\
  ((0 < dt)%R -> na <= nv -> exists s0, @pva_new Rnum Rtrunc jk name nv na dt = Some (Some s0) /\ p_dt s0 = (2 * dt)%R /\
     snd (pva_view s0) = (false, false, false, false) /\
     forall i, (vget (p_qmin s0) i = - 10 ^ 10 /\ vget (p_qmax s0) i = 10 ^ 10 /\ vget (p_dqmax s0) i = 10 ^ 10 /\ vget (p_ddqmax s0) i = 10 ^ 10)%R).
Proof.
  split.
  - intros H. unfold pva_new. replace (@nltb Rnum (@n0 Rnum) dt) with false by (symmetry; apply Rltb_false; exact H). reflexivity.
  - intros H Hn. destruct (pva_new_ok jk name nv na dt Hn H) as (s0 & E & (_ & _ & D & _) & F1 & F2 & F3 & F4 & _).
    exists s0. split; [exact E|]. split; [exact D|]. split; [unfold pva_view; rewrite F1, F2, F3, F4; reflexivity|].
    unfold pva_new in E. destruct (_ <? _)%num; [|discriminate]. unfold pva_mask in E. cbn [p_nv p_na p_c] in E.
    destruct (set_mask _ _ _ _ _ _) as [d M ax|d ax|]; [|cbn [obind] in E|discriminate E].
    + destruct (cresize _ _ _) as [c|]; [|discriminate E]. cbn [obind] in E. destruct (guard _) as [[]|]; [|discriminate E].
      cbn [obind] in E. injection E as <-. intros i. split; [exact mhuge_R|]. repeat split; exact huge_R.
    + destruct (guard _) as [[]|]; discriminate E.
Qed.

(** ** Conflicting limits *)
Definition least (l : list R) (u : R) : Prop := In u l /\ forall x, In x l -> (u <= x)%R.
Definition greatest (l : list R) (u : R) : Prop := In u l /\ forall x, In x l -> (x <= u)%R.
Lemma least4 a b c d : least [a; b; c; d] (@nmin Rnum (@nmin Rnum (@nmin Rnum a b) c) d).
Proof.
  rewrite !nmin_R. split.
  - unfold Rmin. cbn [In]. destruct (Rle_dec a b); repeat destruct (Rle_dec _ _); tauto.
  - intros x Hx. cbn [In] in Hx. unfold Rmin. repeat destruct (Rle_dec _ _); intuition lra.
Qed.
Lemma greatest4 a b c d : greatest [a; b; c; d] (@nmax Rnum (@nmax Rnum (@nmax Rnum a b) c) d).
Proof.
  rewrite !nmax_R. split.
  - unfold Rmax. cbn [In]. destruct (Rle_dec a b); repeat destruct (Rle_dec _ _); tauto.
  - intros x Hx. cbn [In] in Hx. unfold Rmax. repeat destruct (Rle_dec _ _); intuition lra.
Qed.
Lemma least_unique l u u' : least l u -> least l u' -> u = u'.
Proof. intros [A B] [C D]. apply Rle_antisym; auto. Qed.
Lemma greatest_unique l u u' : greatest l u -> greatest l u' -> u = u'.
Proof. intros [A B] [C D]. apply Rle_antisym; auto. Qed.
Lemma resolve_spec (p w x y : Rnum * Rnum) l u :
  greatest [fst p; fst w; fst x; fst y] l -> least [snd p; snd w; snd x; snd y] u ->
  ((l <= u)%R -> resolve p w x y = (l, u)) /\
  ((u < l)%R -> u = snd p -> resolve p w x y = (u, u)) /\
  ((u < l)%R -> u <> snd p -> resolve p w x y = (l, l)).
Proof.
  intros G L. unfold resolve. cbv zeta.
  rewrite <- (greatest_unique _ _ _ G (greatest4 _ _ _ _)), <- (least_unique _ _ _ L (least4 _ _ _ _)).
  change (@nltb Rnum u l) with (Rltb u l). change (@neqb Rnum u (snd p)) with (Reqb u (snd p)).
  repeat split.
  - intros H. apply Rltb_false in H. rewrite H. reflexivity.
  - intros H E. apply Rltb_true in H. apply Reqb_true in E. rewrite H, E. reflexivity.
  - intros H E. apply Rltb_true in H. apply Reqb_false in E. rewrite H, E. reflexivity.
Qed.
(** The velocity and acceleration limits on the acceleration of a joint. *)
Definition vel_range (s : rpva) (i : nat) (v : R) : R * R :=
  if p_ivel s then ((- vget (p_dqmax s) i - v) / p_dt s, (vget (p_dqmax s) i - v) / p_dt s)%R else (- 10 ^ 10, 10 ^ 10)%R.
Definition acc_range (s : rpva) (i : nat) : R * R :=
  if p_iacc s then (- vget (p_ddqmax s) i, vget (p_ddqmax s) i)%R else (- 10 ^ 10, 10 ^ 10)%R.
Theorem pva_conflict (s s' : rpva) q v i l u : rstep s (PCompute q v) = Ret s' tt ->
  let pos := p_pos s' i in let via := p_via s' i in
  let vel := vel_range s i (last_of (p_na s) v i) in let acc := acc_range s i in
  greatest [fst pos; fst via; fst vel; fst acc] l -> least [snd pos; snd via; snd vel; snd acc] u ->
  ((l <= u)%R -> vget (c_lb (p_c s')) i = l /\ vget (c_ub (p_c s')) i = u) /\
  ((u < l)%R -> u = snd pos -> vget (c_lb (p_c s')) i = u /\ vget (c_ub (p_c s')) i = u) /\
  ((u < l)%R -> u <> snd pos -> vget (c_lb (p_c s')) i = l /\ vget (c_ub (p_c s')) i = l).
Proof.
  intros E. destruct (pva_compute_len s q v s' E) as [Hq Hv].
  cbn [pva_step] in E. unfold pva_compute in E.
  destruct (vtail_def q _ Hq) as (qa & Eq & _ & Q). destruct (vtail_def v _ Hv) as (va & Ev & _ & V).
  rewrite Eq, Ev in E. cbn [obind] in E. injection E as <-. cbn [p_pos p_via p_c c_lb c_ub vget].
  cbv zeta. intros G L.
  match type of G with greatest [fst ?a; fst ?b; _; _] _ => set (pos := a) in *; set (via := b) in * end.
  assert (EV : vel_range s i (last_of (p_na s) v i) = @vel_lim Rnum (p_ivel s) (p_dt s) (vget (p_dqmax s) i) (vget va i)).
  { unfold vel_range, vel_lim. destruct (p_ivel s).
    - rewrite V. reflexivity.
    - rewrite huge_R, mhuge_R. reflexivity. }
  assert (EA : acc_range s i = @acc_lim Rnum (p_iacc s) (vget (p_ddqmax s) i)).
  { unfold acc_range, acc_lim. rewrite huge_R, mhuge_R. destruct (p_iacc s); reflexivity. }
  rewrite EV, EA in G, L.
  destruct (resolve_spec pos via _ _ l u G L) as (R1 & R2 & R3).
  repeat split; intros; first [rewrite R1 by assumption|rewrite R2 by assumption|rewrite R3 by assumption]; reflexivity.
Qed.
(** Even in a conflict all velocity and acceleration limits of one side hold. *)
Theorem pva_one_side name nv na dt (s s' : rpva) q v : na <= nv -> pmade steady name nv na dt s ->
  rstep s (PCompute q v) = Ret s' tt -> forall y, sat (p_c s') y -> forall i, i < na ->
  let a := y (nv - na + i) in
  ((p_ivel s = true -> last_of na v i + 2 * dt * a <= vget (p_dqmax s) i) /\ (p_iacc s = true -> a <= vget (p_ddqmax s) i))%R \/
  ((p_ivel s = true -> - vget (p_dqmax s) i <= last_of na v i + 2 * dt * a) /\ (p_iacc s = true -> - vget (p_ddqmax s) i <= a))%R.
Proof.
  intros Hn M E y Sy i Hi a. destruct (pmade_inv _ _ _ _ _ Hn M) as (Hd & N & _ & D & _).
  apply (pva_sat name nv na dt s q v s' Hn M E) with (i := i) in Sy; [|exact Hi]. fold a in Sy.
  destruct (pva_compute_len _ _ _ _ E) as [Q V].
  destruct (pva_compute_ok s q v Q V) as (t & E' & _ & _ & _ & _ & _ & _ & _ & _ & C8). rewrite E' in E. injection E as <-.
  set (pos := p_pos t i). set (via := p_via t i). set (vel := vel_range s i (last_of (p_na s) v i)). set (acc := acc_range s i).
  destruct (pva_conflict s t q v i _ _ E' (greatest4 (fst pos) (fst via) (fst vel) (fst acc)) (least4 (snd pos) (snd via) (snd vel) (snd acc))) as (R1 & R2 & R3).
  assert (G := greatest4 (fst pos) (fst via) (fst vel) (fst acc)). assert (L := least4 (snd pos) (snd via) (snd vel) (snd acc)).
  set (l := @nmax Rnum _ _) in *. set (u := @nmin Rnum _ _) in *. destruct G as [_ G], L as [_ L].
  rewrite <- C8 in Sy. unfold within in Sy. cbn [fst snd] in Sy.
  assert (U : (a <= u)%R -> ((p_ivel s = true -> last_of na v i + 2 * dt * a <= vget (p_dqmax s) i) /\ (p_iacc s = true -> a <= vget (p_ddqmax s) i))%R).
  { intros H. assert (V1 := L (snd vel) ltac:(cbn; tauto)). assert (A1 := L (snd acc) ltac:(cbn; tauto)). split; intros F.
    - unfold vel, vel_range in V1. rewrite F, D, N in V1. cbn [snd] in V1.
      assert (X : (a <= (vget (p_dqmax s) i - last_of na v i) / (2 * dt))%R) by (eapply Rle_trans; eassumption).
      apply Rmult_le_compat_l with (r := (2 * dt)%R) in X; [|lra].
      replace (2 * dt * ((vget (p_dqmax s) i - last_of na v i) / (2 * dt)))%R with (vget (p_dqmax s) i - last_of na v i)%R in X by (field; lra). lra.
    - unfold acc, acc_range in A1. rewrite F in A1. cbn [snd] in A1. eapply Rle_trans; eassumption. }
  assert (W : (l <= a)%R -> ((p_ivel s = true -> - vget (p_dqmax s) i <= last_of na v i + 2 * dt * a) /\ (p_iacc s = true -> - vget (p_ddqmax s) i <= a))%R).
  { intros H. assert (V1 := G (fst vel) ltac:(cbn; tauto)). assert (A1 := G (fst acc) ltac:(cbn; tauto)). split; intros F.
    - unfold vel, vel_range in V1. rewrite F, D, N in V1. cbn [fst] in V1.
      assert (X : ((- vget (p_dqmax s) i - last_of na v i) / (2 * dt) <= a)%R) by (eapply Rle_trans; eassumption).
      apply Rmult_le_compat_l with (r := (2 * dt)%R) in X; [|lra].
      replace (2 * dt * ((- vget (p_dqmax s) i - last_of na v i) / (2 * dt)))%R with (- vget (p_dqmax s) i - last_of na v i)%R in X by (field; lra). lra.
    - unfold acc, acc_range in A1. rewrite F in A1. cbn [fst] in A1. eapply Rle_trans; eassumption. }
  destruct (Rlt_le_dec u l) as [H|H].
  - destruct (Req_dec u (snd pos)) as [Z|Z].
    + destruct (R2 H Z) as [X1 X2]. left. apply U. rewrite X1, X2 in Sy. apply Sy.
    + destruct (R3 H Z) as [X1 X2]. right. apply W. rewrite X1, X2 in Sy. apply Sy.
  - destruct (R1 H) as [X1 X2]. left. apply U. rewrite X1, X2 in Sy. apply Sy.
Qed.

(** ** The viability check *)
Open Scope R_scope.
(** The largest speed that can be braked by [A] within the distance [d] (0 beyond the limit). *)
Definition stop_speed (A d : R) : R := if Rle_dec d 0 then 0 else sqrt (2 * A * d).
(** Some limit is exceeded by more than [e]: position, speed, or a speed too high to
    brake before the upper or the lower position limit. *)
Definition exceeds (e qmin qmax dqmax A q v : R) : Prop :=
  q < qmin - e \/ qmax + e < q \/ dqmax + e < Rabs v \/ stop_speed A (qmax - q) + e < v \/ v < - stop_speed A (q - qmin) - e.
(** [compute] prints "WARNING: specified state is not viable" for joint [i], pva:362-370. *)
Definition warned (s' : rpva) (i : nat) : Prop := / 10 ^ 10 < p_viol s' i.

Lemma stop_speed_R A d : 0 <= A -> @eq R (sqrt (@nmax Rnum (@n0 Rnum) (2 * A * d))) (stop_speed A d).
Proof.
  intros HA. rewrite nmax_R. cbn [Rnum n0]. unfold stop_speed. destruct (Rle_dec d 0) as [H|H].
  - rewrite Rmax_left by nra. apply sqrt_0.
  - rewrite Rmax_right; [reflexivity|]. nra.
Qed.
Lemma stop_speed_max A d v : 0 <= A -> 0 <= d -> 0 <= v -> (v <= stop_speed A d <-> v * v <= 2 * A * d).
Proof.
  intros HA Hd Hv. assert (P : 0 <= 2 * A * d) by nra. unfold stop_speed. destruct (Rle_dec d 0) as [H|H].
  - assert (d = 0) by lra. subst d. rewrite Rmult_0_r. split; intros; nra.
  - split; intros X.
    + rewrite <- (sqrt_sqrt (2 * A * d)) by exact P. apply Rmult_le_compat; assumption.
    + rewrite <- (sqrt_square v) by exact Hv. apply sqrt_le_1_alt. exact X.
Qed.
Lemma nabs_R (x : R) : @eq R (@nabs Rnum x) (Rabs x).
Proof.
  unfold nabs. change (@nltb Rnum x n0) with (Rltb x 0). destruct (Rltb x 0) eqn:E.
  - apply Rltb_true in E. rewrite Rabs_left by exact E. reflexivity.
  - apply Rltb_false in E. rewrite Rabs_right by lra. reflexivity.
Qed.
Lemma viol_R qmin qmax dqmax A q v : 0 <= A ->
  @eq R (@viol Rnum rsqrt qmin qmax dqmax A q v)
  (let e := / 10 ^ 10 in
   if Rlt_dec v (- stop_speed A (q - qmin) + e) then - stop_speed A (q - qmin) - v
   else if Rlt_dec (stop_speed A (qmax - q) + e) v then v - stop_speed A (qmax - q)
   else if Rlt_dec (dqmax + e) (Rabs v) then Rabs v - dqmax
   else if Rlt_dec (qmax + e) q then q - qmax
   else if Rlt_dec q (qmin - e) then qmin - q else 0).
Proof.
  intros HA. unfold viol. rewrite eps_R, nabs_R, two_R.
  change (@nsub Rnum) with Rminus. change (@nadd Rnum) with Rplus. change (@nmul Rnum) with Rmult. change (@nopp Rnum) with Ropp. change (@nltb Rnum) with Rltb.
  rewrite !stop_speed_R by exact HA. cbv zeta. unfold Rltb. 
  destruct (Rlt_dec v _); [reflexivity|]. destruct (Rlt_dec (stop_speed _ _ + _) v); [reflexivity|].
  destruct (Rlt_dec (dqmax + _) _); [reflexivity|]. destruct (Rlt_dec (qmax + _) q); [reflexivity|]. destruct (Rlt_dec q _); reflexivity.
Qed.
Lemma viol_at (s s' : rpva) q v i : rstep s (PCompute q v) = Ret s' tt ->
  p_viol s' i = @viol Rnum rsqrt (vget (p_qmin s) i) (vget (p_qmax s) i) (vget (p_dqmax s) i) (vget (p_ddqmax s) i) (last_of (p_na s) q i) (last_of (p_na s) v i).
Proof.
  intros E. destruct (pva_compute_len s q v s' E) as [Hq Hv].
  cbn [pva_step] in E. unfold pva_compute in E.
  destruct (vtail_def q _ Hq) as (qa & Eq & _ & Q). destruct (vtail_def v _ Hv) as (va & Ev & _ & V).
  rewrite Eq, Ev in E. cbn [obind] in E. injection E as <-. cbn [p_viol]. rewrite Q, V. reflexivity.
Qed.
(** A joint that can stop inside its range and is not too fast gives no warning. *)
Theorem viab_sound (s s' : rpva) q v i : rstep s (PCompute q v) = Ret s' tt ->
  0 <= vget (p_ddqmax s) i ->
  stoppable (vget (p_ddqmax s) i) (vget (p_qmin s) i) (vget (p_qmax s) i) (last_of (p_na s) q i) (last_of (p_na s) v i) ->
  Rabs (last_of (p_na s) v i) <= vget (p_dqmax s) i -> p_viol s' i <= 0 /\ ~ warned s' i.
Proof.
  intros E HA HS HV. assert (X : p_viol s' i <= 0).
  - rewrite (viol_at s s' q v i E), viol_R by exact HA. apply stoppable_iff in HS; [|exact HA]. destruct HS as (B & U & L).
    set (A := vget (p_ddqmax s) i) in *. set (qi := last_of (p_na s) q i) in *. set (vi := last_of (p_na s) v i) in *.
    assert (e : 0 < / 10 ^ 10) by (apply Rinv_0_lt_compat; lra).
    assert (U' : vi <= stop_speed A (vget (p_qmax s) i - qi)).
    { destruct (Rle_dec vi 0) as [H|H].
      - apply Rle_trans with 0; [exact H|]. unfold stop_speed. destruct (Rle_dec _ _); [lra|apply sqrt_pos].
      - apply stop_speed_max; try lra. }
    assert (L' : - stop_speed A (qi - vget (p_qmin s) i) <= vi).
    { destruct (Rle_dec 0 vi) as [H|H].
      - apply Rle_trans with 0; [|exact H]. unfold stop_speed. destruct (Rle_dec _ _); [lra|]. assert (Z := sqrt_pos (2 * A * (qi - vget (p_qmin s) i))). lra.
      - assert (Z : - vi <= stop_speed A (qi - vget (p_qmin s) i)); [|lra]. apply stop_speed_max; try lra. }
    cbv zeta. set (e0 := / 10 ^ 10) in *. repeat (destruct (Rlt_dec _ _); try lra).
  - split; [exact X|]. unfold warned. assert (e : 0 < / 10 ^ 10) by (apply Rinv_0_lt_compat; lra). lra.
Qed.
(** Away from the lower braking limit the warning is exact. *)
Theorem viab_exact (s s' : rpva) q v i : rstep s (PCompute q v) = Ret s' tt ->
  0 <= vget (p_ddqmax s) i ->
  let qi := last_of (p_na s) q i in let vi := last_of (p_na s) v i in
  let dn := - stop_speed (vget (p_ddqmax s) i) (qi - vget (p_qmin s) i) in
  vi < dn - / 10 ^ 10 \/ dn + / 10 ^ 10 <= vi ->
  (warned s' i <-> exceeds (/ 10 ^ 10) (vget (p_qmin s) i) (vget (p_qmax s) i) (vget (p_dqmax s) i) (vget (p_ddqmax s) i) qi vi).
Proof.
  intros E HA qi vi dn HB. unfold warned, exceeds. rewrite (viol_at s s' q v i E), viol_R by exact HA. cbv zeta. fold qi vi dn.
  assert (e : 0 < / 10 ^ 10) by (apply Rinv_0_lt_compat; lra). set (e0 := / 10 ^ 10) in *.
  repeat (destruct (Rlt_dec _ _)); split; intros; try lra; try tauto.
Qed.
(** Within 1e-10 of it nothing is reported, whatever limit is exceeded. *)
Theorem viab_masked (s s' : rpva) q v i : rstep s (PCompute q v) = Ret s' tt ->
  0 <= vget (p_ddqmax s) i ->
  let qi := last_of (p_na s) q i in let vi := last_of (p_na s) v i in
  let dn := - stop_speed (vget (p_ddqmax s) i) (qi - vget (p_qmin s) i) in
  dn - / 10 ^ 10 <= vi < dn + / 10 ^ 10 -> ~ warned s' i.
Proof.
  intros E HA qi vi dn HB. unfold warned. rewrite (viol_at s s' q v i E), viol_R by exact HA. cbv zeta. fold qi vi dn.
  destruct (Rlt_dec _ _); lra.
Qed.
(** A joint at rest [d] below its range: far from viable, not reported; as far above its
    range, or moving up at 1, it is. *)
Theorem viab_below name d : 0 < d -> / 10 ^ 10 < d -> exists (s s1 s2 s3 : rpva), pmade steady name 1 1 1 s /\
  vget (p_qmin s) 0 = 0 /\ vget (p_qmax s) 0 = 1 /\ vget (p_ddqmax s) 0 = 1 /\
  rstep s (PCompute (v1 (- d)) (v1 0)) = Ret s1 tt /\
  exceeds (/ 10 ^ 10) (vget (p_qmin s) 0) (vget (p_qmax s) 0) (vget (p_dqmax s) 0) (vget (p_ddqmax s) 0) (- d) 0 /\
  ~ stoppable (vget (p_ddqmax s) 0) (vget (p_qmin s) 0) (vget (p_qmax s) 0) (- d) 0 /\ ~ warned s1 0 /\
  rstep s (PCompute (v1 (1 + d)) (v1 0)) = Ret s2 tt /\ warned s2 0 /\
  rstep s (PCompute (v1 (- d)) (v1 1)) = Ret s3 tt /\ warned s3 0.
Proof.
  intros D0 D. destruct (pva_case name 1 0 1 1 1) as (s & M & N & Q1 & Q2 & Q3 & Q4 & _); [lra|].
  assert (e : 0 < / 10 ^ 10) by (apply Rinv_0_lt_compat; lra).
  destruct (pva_compute_ok s (v1 (- d)) (v1 0)) as (s1 & E1 & _); [rewrite N; cbn; lia|rewrite N; cbn; lia|].
  destruct (pva_compute_ok s (v1 (1 + d)) (v1 0)) as (s2 & E2 & _); [rewrite N; cbn; lia|rewrite N; cbn; lia|].
  destruct (pva_compute_ok s (v1 (- d)) (v1 1)) as (s3 & E3 & _); [rewrite N; cbn; lia|rewrite N; cbn; lia|].
  assert (HA : 0 <= vget (p_ddqmax s) 0) by (rewrite Q4; cbn; lra).
  exists s, s1, s2, s3. split; [exact M|]. rewrite Q1, Q2, Q3, Q4. cbn [v1 vget]. split; [reflexivity|]. split; [reflexivity|]. split; [reflexivity|].
  split; [exact E1|]. split; [left; lra|]. split; [intros H; apply stoppable_iff in H; [|lra]; destruct H as (H & _); lra|].
  assert (Z : stop_speed 1 (- d - 0) = 0). { unfold stop_speed. destruct (Rle_dec _ _); [reflexivity|lra]. }
  split; [|split; [exact E2|split; [|split; [exact E3|]]]].
  - apply (viab_masked s s1 _ _ 0 E1 HA). rewrite N, !last_v1 by lia. rewrite Q1, Q4. cbn [v1 vget]. rewrite Z. lra.
  - apply (viab_exact s s2 _ _ 0 E2 HA).
    + rewrite N, !last_v1 by lia. rewrite Q1, Q4. cbn [v1 vget]. right. unfold stop_speed. destruct (Rle_dec _ _); [lra|].
      assert (1 <= sqrt (2 * 1 * (1 + d - 0))); [|lra]. rewrite <- sqrt_1 at 1. apply sqrt_le_1_alt. lra.
    + rewrite N, !last_v1 by lia. rewrite Q2. cbn [v1 vget]. right. left. lra.
  - apply (viab_exact s s3 _ _ 0 E3 HA).
    + rewrite N, !last_v1 by lia. rewrite Q1, Q4. cbn [v1 vget]. right. rewrite Z. lra.
    + rewrite N, !last_v1 by lia. rewrite Q1. cbn [v1 vget]. left. lra.
Qed.

(** Speed 10 with at most 1 allowed and decelerations of at most 1: the limits exclude
    each other. *)
Lemma conflict_case name : exists (s s' : rpva) q v l u, pmade steady name 1 1 1 s /\ rstep s (PCompute q v) = Ret s' tt /\
  let pos := p_pos s' 0%nat in let via := p_via s' 0%nat in
  let vel := vel_range s 0 (last_of (p_na s) v 0) in let acc := acc_range s 0 in
  greatest [fst pos; fst via; fst vel; fst acc] l /\ least [snd pos; snd via; snd vel; snd acc] u /\ u < l.
Proof.
  destruct (pva_case name 1 (- 100) 100 1 1) as (s & M & N & Q1 & Q2 & Q3 & Q4 & F1 & F2 & F3 & F4 & _); [lra|].
  destruct (pva_compute_ok s (v1 0) (v1 10)) as (s' & E & _); [rewrite N; cbn; lia|rewrite N; cbn; lia|].
  eexists s, s', (v1 0), (v1 10), _, _. split; [exact M|]. split; [exact E|]. cbv zeta.
  split; [apply greatest4|]. split; [apply least4|].
  destruct (greatest4 (fst (p_pos s' 0%nat)) (fst (p_via s' 0%nat)) (fst (vel_range s 0 (last_of (p_na s) (v1 10) 0))) (fst (acc_range s 0))) as [_ G].
  destruct (least4 (snd (p_pos s' 0%nat)) (snd (p_via s' 0%nat)) (snd (vel_range s 0 (last_of (p_na s) (v1 10) 0))) (snd (acc_range s 0))) as [_ L].
  assert (G1 := G (fst (acc_range s 0)) ltac:(cbn; tauto)). assert (L1 := L (snd (vel_range s 0 (last_of (p_na s) (v1 10) 0))) ltac:(cbn; tauto)).
  eapply Rle_lt_trans; [exact L1|]. eapply Rlt_le_trans; [|exact G1].
  destruct (pmade_inv _ _ _ _ _ (le_n 1) M) as (_ & _ & _ & D & _).
  unfold vel_range, acc_range. rewrite F3, F4, D, N, Q3, Q4, last_v1 by lia. cbn [v1 vget fst snd]. lra.
Qed.
