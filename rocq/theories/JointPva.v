(** TaskJointPosVelAccBounds over every sequence of calls. *)
From Coq Require Import String List Arith Bool ZArith QArith Reals Lia Lra.
From Verif Require Import Scalar Outcome Linalg Constraint FormPhysSpec RSum Masks MaskReal JointBounds JointSpec JointReal JointLimits JointViab JointTask.
Import ListNotations.
Open Scope nat_scope.

(** ** Any arithmetic: the interval is never inverted. *)
Theorem resolve_ordered {K : num} (p w x y : K * K) : (forall t : K, (t <? t)%num = false) ->
  (snd (resolve p w x y) <? fst (resolve p w x y))%num = false.
Proof.
  intros H. unfold resolve. set (l := nmax _ _). set (u := nmin _ _). destruct (u <? l)%num eqn:E; [|exact E].
  destruct (u =? snd p)%num; cbn [fst snd]; apply H.
Qed.
Theorem pva_ordered {K : num} (sq : K -> K) toZ (s s' : pva K) q v : (forall t : K, (t <? t)%num = false) ->
  pva_step sq toZ s (PCompute q v) = Ret s' tt ->
  vlen (c_lb (p_c s')) = p_na s /\ vlen (c_ub (p_c s')) = p_na s /\
  forall i, (vget (c_ub (p_c s')) i <? vget (c_lb (p_c s')) i)%num = false.
Proof.
  intros H. cbn [pva_step]. unfold pva_compute. destruct (vtail q _) as [qa|]; [|discriminate]. destruct (vtail v _) as [va|]; [|discriminate].
  cbn [obind]. intros E. injection E as <-. cbn [p_c c_lb c_ub vlen vget]. split; [reflexivity|]. split; [reflexivity|].
  intros i. apply resolve_ordered. exact H.
Qed.

(** ** Reachable states over the reals *)
Notation rpva := (pva Rnum).
Notation rstep := (@pva_step Rnum rsqrt Rtrunc).
(** Calls other than setTimeStep and masks that switch joints off. *)
Definition steady (s : rpva) (o : pvaop Rnum) : Prop :=
  match o with PDt _ => False | PMask _ m => ones m | _ => True end.
Definition any_op (s : rpva) (o : pvaop Rnum) : Prop := True.
(** Reached from a constructor call with time step [dt] by calls satisfying [P]. *)
Definition pmade (P : rpva -> pvaop Rnum -> Prop) (name : string) (nv na : nat) (dt : R) (s : rpva) : Prop :=
  exists jk s0, @pva_new Rnum Rtrunc jk name nv na dt = Some (Some s0) /\ reach rstep P s0 s.

(** Row [j] of the matrix reads joint [j]. *)
Definition full (nv na : nat) (M : mat Rnum) : Prop :=
  mrows M = na /\ mcols M = nv /\ forall j y, j < na -> y < nv -> mget M j y = (if y =? nv - na + j then 1 else 0)%R.
Definition pinv (nv na : nat) (h : R) (s : rpva) : Prop :=
  p_na s = na /\ p_nv s = nv /\ p_dt s = h /\ p_tds s = (2 / (h * h))%R /\ p_dts s = (h * h)%R /\ p_ta s = (2 * (h * h))%R /\
  vlen (p_qmin s) = na /\ vlen (p_qmax s) = na /\ vlen (p_dqmax s) = na /\ vlen (p_ddqmax s) = na /\
  c_kind (p_c s) = CIneq /\ full nv na (c_mat (p_c s)) /\ vlen (c_lb (p_c s)) = na /\ vlen (c_ub (p_c s)) = na.

Lemma pva_mask_ones jk nv na (s : rpva) m : na <= nv -> p_na s = na -> p_nv s = nv -> c_kind (p_c s) = CIneq -> vlen m = na -> ones m ->
  exists M ax, @pva_mask Rnum Rtrunc jk s m = Some (mkPva (p_na s) (p_nv s) (p_dt s) (p_tds s) (p_dts s) (p_ta s)
      (p_qmin s) (p_qmax s) (p_dqmax s) (p_ddqmax s) (p_ipos s) (p_ivel s) (p_ivia s) (p_iacc s)
      (p_pos s) (p_via s) (p_viol s) m na ax
      (mkConstr (c_name (p_c s)) CIneq M (c_vec (p_c s)) (vzero na) (vzero na)), true) /\ full nv na M.
Proof.
  intros Hn E1 E2 Hk Hm Ho. unfold pva_mask. rewrite E1, E2.
  destruct (set_mask_ok Rtrunc jk nv (nv - na) (fun _ => n1) m (ones_01 m Ho) (mask_counted m (ones_01 m Ho))) as (M & ax & -> & S & C & _); [lia|].
  rewrite (ones_actives m Ho), seq_length, Hm in *. unfold cresize. rewrite Hk. cbn [obind cset_mat c_name c_kind c_vec c_lb c_ub].
  exists M, ax. split; [rewrite <- E1, <- E2; reflexivity|]. destruct S as [S1 S2]. rewrite seq_length in S1. split; [exact S1|]. split; [exact C|].
  intros j y Hj Hy. rewrite (S2 j j) by (try lia; rewrite nth_error_nth' with (d := 0) by (rewrite seq_length; lia); rewrite seq_nth by lia; reflexivity).
  destruct (y =? nv - na + j); reflexivity.
Qed.
Lemma const_ones na : ones (@const_vec Rnum na n1).
Proof. intros i _. reflexivity. Qed.
Lemma pva_new_ok jk name nv na dt : na <= nv -> (0 < dt)%R ->
  exists s0, @pva_new Rnum Rtrunc jk name nv na dt = Some (Some s0) /\ pinv nv na (2 * dt)%R s0 /\
    p_ipos s0 = false /\ p_ivel s0 = false /\ p_ivia s0 = false /\ p_iacc s0 = false /\
    forall i, p_pos s0 i = (mhuge, huge) /\ p_via s0 i = (mhuge, huge).
Proof.
  intros Hn Hd. unfold pva_new. replace (@nltb Rnum (@n0 Rnum) dt) with true by (symmetry; apply Rltb_true; exact Hd).
  edestruct (pva_mask_ones jk nv na) as (M & ax & E & F); [exact Hn| | | | |apply (const_ones na)|]; cycle 4.
  - rewrite E. cbn [obind p_c c_lb c_ub c_name c_kind c_mat c_vec vlen vzero guard].
    replace (na <=? na) with true by (symmetry; apply Nat.leb_le; lia). cbn [guard obind].
    eexists. split; [reflexivity|]. split; [|repeat split]. unfold pinv.
    cbn [p_na p_nv p_dt p_tds p_dts p_ta p_qmin p_qmax p_dqmax p_ddqmax p_c c_kind c_mat c_lb c_ub over const_vec vlen vzero]. rewrite two_R.
    repeat (split; [reflexivity || assumption|]). reflexivity.
  - reflexivity.
  - reflexivity.
  - reflexivity.
  - reflexivity.
Qed.
(** The interval of joint [i]. *)
Definition row_of (s : rpva) (q v : vec Rnum) (i : nat) : Rnum * Rnum :=
  let qi := last_of (p_na s) q i in let vi := last_of (p_na s) v i in
  resolve
    (if p_ipos s then pos_lim (p_dt s) (p_tds s) (vget (p_qmin s) i) (vget (p_qmax s) i) qi vi else p_pos s i)
    (if p_ivia s then via_lim rsqrt (p_dt s) (p_dts s) (p_ta s) (vget (p_ddqmax s) i) (vget (p_qmin s) i) (vget (p_qmax s) i) qi vi else p_via s i)
    (vel_lim (p_ivel s) (p_dt s) (vget (p_dqmax s) i) vi) (acc_lim (p_iacc s) (vget (p_ddqmax s) i)).
Definition same_pparams (s s' : rpva) : Prop :=
  p_na s' = p_na s /\ p_nv s' = p_nv s /\ p_dt s' = p_dt s /\ p_qmin s' = p_qmin s /\ p_qmax s' = p_qmax s /\
  p_dqmax s' = p_dqmax s /\ p_ddqmax s' = p_ddqmax s /\
  p_ipos s' = p_ipos s /\ p_ivel s' = p_ivel s /\ p_ivia s' = p_ivia s /\ p_iacc s' = p_iacc s.
Lemma pva_compute_ok (s : rpva) q v : p_na s <= vlen q -> p_na s <= vlen v ->
  exists s', rstep s (PCompute q v) = Ret s' tt /\ same_pparams s s' /\
    p_tds s' = p_tds s /\ p_dts s' = p_dts s /\ p_ta s' = p_ta s /\
    c_kind (p_c s') = c_kind (p_c s) /\ c_mat (p_c s') = c_mat (p_c s) /\
    vlen (c_lb (p_c s')) = p_na s /\ vlen (c_ub (p_c s')) = p_na s /\
    forall i, (vget (c_lb (p_c s')) i, vget (c_ub (p_c s')) i) = row_of s q v i.
Proof.
  intros Hq Hv. cbn [pva_step]. unfold pva_compute.
  destruct (vtail_def q _ Hq) as (qa & -> & _ & Q). destruct (vtail_def v _ Hv) as (va & -> & _ & V). cbn [obind].
  eexists. split; [reflexivity|]. cbn [p_tds p_dts p_ta p_c c_kind c_mat c_lb c_ub vlen vget].
  split; [repeat split|]. repeat (split; [reflexivity|]). intros i. rewrite <- surjective_pairing. unfold row_of. rewrite <- !Q, <- !V.
  destruct (p_ipos s), (p_ivia s); reflexivity.
Qed.
Lemma pva_compute_len (s : rpva) q v s' : rstep s (PCompute q v) = Ret s' tt -> p_na s <= vlen q /\ p_na s <= vlen v.
Proof.
  cbn [pva_step]. unfold pva_compute. destruct (vtail q _) as [qa|] eqn:E; [|discriminate]. destruct (vtail v _) as [va|] eqn:E'; [|discriminate].
  intros _. split; [apply (vtail_some _ _ _ E)|apply (vtail_some _ _ _ E')].
Qed.
Lemma pinv_step nv na h s o s' : na <= nv -> pinv nv na h s -> steady s o -> after (rstep s o) = Some s' -> pinv nv na h s'.
Proof.
  intros Hn I HP. assert (I' := I). destruct I as (I1 & I2 & I3 & I4 & I5 & I6 & I7 & I8 & I9 & I10 & I11 & I12 & I13 & I14).
  destruct o as [dt|l u|u|u|a b c d|jk m|b|q v]; cbn [steady] in HP; [destruct HP| | | | | | |].
  - cbn [pva_step]. destruct ((vlen l =? p_na s) && (vlen u =? p_na s)) eqn:E; intros X; injection X as <-; [|exact I'].
    apply andb_true_iff in E as [A B]. apply Nat.eqb_eq in A, B. unfold pinv, w_lims. cbn. repeat match goal with |- _ /\ _ => split end; first [congruence|exact I12].
  - cbn [pva_step]. destruct (vlen u =? p_na s) eqn:E; intros X; injection X as <-; [|exact I'].
    apply Nat.eqb_eq in E. unfold pinv, w_lims. cbn. repeat match goal with |- _ /\ _ => split end; first [congruence|exact I12].
  - cbn [pva_step]. destruct (vlen u =? p_na s) eqn:E; intros X; injection X as <-; [|exact I'].
    apply Nat.eqb_eq in E. unfold pinv, w_lims. cbn. repeat match goal with |- _ /\ _ => split end; first [congruence|exact I12].
  - cbn [pva_step]. intros X; injection X as <-. unfold pinv, w_lims. cbn. repeat match goal with |- _ /\ _ => split end; first [congruence|exact I12].
  - cbn [pva_step]. destruct (vlen m =? p_na s) eqn:E; [|intros X; injection X as <-; exact I'].
    apply Nat.eqb_eq in E. destruct (pva_mask_ones jk nv na s m) as (M & ax & -> & F); try assumption; [congruence|].
    intros X; injection X as <-. unfold pinv. cbn [p_na p_nv p_dt p_tds p_dts p_ta p_qmin p_qmax p_dqmax p_ddqmax p_c c_kind c_mat c_lb c_ub vlen vzero].
    repeat match goal with |- _ /\ _ => split end; first [congruence|exact F|reflexivity].
  - cbn [pva_step]. intros X; injection X as <-. exact I'.
  - intros X. destruct (rstep s (PCompute q v)) as [t r| |] eqn:E; [|cbn [pva_step] in E; destruct (pva_compute _ _ _ _); discriminate|discriminate].
    injection X as <-. destruct r. destruct (pva_compute_len _ _ _ _ E) as [Q V].
    destruct (pva_compute_ok s q v Q V) as (t' & E' & (P1 & P2 & P3 & P4 & P5 & P6 & P7 & _) & C1 & C2 & C3 & C4 & C5 & C6 & C7 & _).
    rewrite E' in E. injection E as <-. unfold pinv. rewrite P1, P2, P3, P4, P5, P6, P7, C1, C2, C3, C4, C5, C6, C7. tauto.
Qed.
Lemma pmade_inv name nv na dt s : na <= nv -> pmade steady name nv na dt s -> (0 < dt)%R /\ pinv nv na (2 * dt)%R s.
Proof.
  intros Hn (jk & s0 & H0 & Hr).
  assert (Hd : (0 < dt)%R).
  { unfold pva_new in H0. destruct (@nltb Rnum (@n0 Rnum) dt) eqn:E; [apply Rltb_true in E; exact E|discriminate]. }
  split; [exact Hd|]. apply (reach_inv rstep steady (pinv nv na (2 * dt)%R) s0 s).
  - destruct (pva_new_ok jk name nv na dt Hn Hd) as (t & E & I & _). rewrite E in H0. injection H0 as <-. exact I.
  - intros s1 o s2 I P E. eapply pinv_step; eassumption.
  - exact Hr.
Qed.
Lemma full_row nv na (c : constr Rnum) y j : na <= nv -> full nv na (c_mat c) -> c_kind c = CIneq -> j < na -> lhs c y j = y (nv - na + j).
Proof.
  intros Hn (F1 & F2 & F3) Hk Hj. unfold lhs. rewrite Hk, F2. rewrite (rsum_single nv (nv - na + j)).
  - rewrite F3 by lia. rewrite Nat.eqb_refl. apply Rmult_1_l.
  - lia.
  - intros i Hi Hne. rewrite F3 by lia. replace (i =? nv - na + j) with false by (symmetry; apply Nat.eqb_neq; lia). apply Rmult_0_l.
Qed.
Lemma pva_sat_full nv na (s s' : rpva) q v : na <= nv -> p_na s = na -> c_kind (p_c s) = CIneq -> full nv na (c_mat (p_c s)) ->
  rstep s (PCompute q v) = Ret s' tt ->
  forall y, sat (p_c s') y <-> forall i, i < na -> within (row_of s q v i) (y (nv - na + i)).
Proof.
  intros Hn I1 I11 I12 E y.
  destruct (pva_compute_len _ _ _ _ E) as [Q V].
  destruct (pva_compute_ok s q v Q V) as (t & E' & _ & _ & _ & _ & C4 & C5 & C6 & C7 & C8). rewrite E' in E. injection E as <-.
  rewrite I11 in C4. unfold sat. rewrite C4, C6, I1. rewrite <- C5 in I12.
  split; intros H i Hi; specialize (H i Hi); specialize (C8 i).
  - rewrite (full_row nv na _ _ i Hn I12 C4 Hi) in H. rewrite <- C8. exact H.
  - rewrite (full_row nv na _ _ i Hn I12 C4 Hi). rewrite <- C8 in H. exact H.
Qed.
Lemma pva_sat name nv na dt s q v s' : na <= nv -> pmade steady name nv na dt s -> rstep s (PCompute q v) = Ret s' tt ->
  forall y, sat (p_c s') y <-> forall i, i < na -> within (row_of s q v i) (y (nv - na + i)).
Proof.
  intros Hn Hm E y. destruct (pmade_inv _ _ _ _ _ Hn Hm) as (_ & I1 & _ & _ & _ & _ & _ & _ & _ & _ & _ & I11 & I12 & _).
  apply pva_sat_full; assumption.
Qed.

Section R.
Open Scope R_scope.
(** What the task is asked to impose on joint [i] in state (qi, vi) for the
    acceleration [a] over the horizon [h]; a limit that is not imposed is 1e10 for
    velocity and acceleration. *)
Definition imposed (s : rpva) (h : R) (i : nat) (qi vi a : R) : Prop :=
  stays (vget (p_qmin s) i) (vget (p_qmax s) i) qi vi a h /\
  via_ok h (vget (p_ddqmax s) i) (vget (p_qmin s) i) (vget (p_qmax s) i) qi vi a /\
  (if p_ivel s then - vget (p_dqmax s) i <= vel_at vi a h <= vget (p_dqmax s) i else - 10 ^ 10 <= a <= 10 ^ 10) /\
  (if p_iacc s then - vget (p_ddqmax s) i <= a <= vget (p_ddqmax s) i else - 10 ^ 10 <= a <= 10 ^ 10).
Lemma acc_lim_exact b (A a : R) : within (@acc_lim Rnum b A) a <-> if b then - A <= a <= A else - 10 ^ 10 <= a <= 10 ^ 10.
Proof. unfold within, acc_lim. destruct b; cbn [fst snd]; [reflexivity|]. rewrite huge_R, mhuge_R. reflexivity. Qed.
Lemma vel_lim_exact' b h (m v a : R) : 0 < h ->
  (within (@vel_lim Rnum b h m v) a <-> if b then - m <= vel_at v a h <= m else - 10 ^ 10 <= a <= 10 ^ 10).
Proof. intros Hh. destruct b; [apply vel_lim_exact; exact Hh|]. unfold within, vel_lim. cbn [fst snd]. rewrite huge_R, mhuge_R. reflexivity. Qed.
(** A joint strictly able to respect the position limits: inside them and not leaving
    from one of them. *)
Definition inside (qmin qmax q v : R) : Prop := qmin <= q <= qmax /\ (q = qmin -> 0 <= v) /\ (q = qmax -> v <= 0).
Lemma brake_inside A qmin qmax q v : brake A qmin qmax q v -> inside qmin qmax q v.
Proof. intros (B & U & L). split; [exact B|]. split; intros ->; [destruct (Rle_dec 0 v) as [X|X]; [exact X|]|destruct (Rle_dec v 0) as [X|X]; [exact X|]].
  - specialize (L ltac:(lra)). nra.
  - specialize (U ltac:(lra)). nra.
Qed.
Lemma row_exact name nv na dt (s : rpva) (q v : vec Rnum) i : (na <= nv)%nat -> pmade steady name nv na dt s -> (i < na)%nat ->
  p_ipos s = true -> p_ivia s = true -> 0 <= vget (p_ddqmax s) i ->
  inside (vget (p_qmin s) i) (vget (p_qmax s) i) (last_of na q i) (last_of na v i) ->
  (exists a0, imposed s (2 * dt) i (last_of na q i) (last_of na v i) a0) ->
  forall a, within (row_of s q v i) a <-> imposed s (2 * dt) i (last_of na q i) (last_of na v i) a.
Proof.
  intros Hn Hm Hi HP HV HA (B & Z1 & Z2) (a0 & P0 & W0 & X0 & Y0) a.
  destruct (pmade_inv _ _ _ _ _ Hn Hm) as (Hd & I1 & I2 & I3 & I4 & I5 & I6 & _). set (h := 2 * dt) in *.
  assert (Hh : 0 < h) by (unfold h; lra).
  unfold row_of. rewrite HP, HV, I1, I3, I4, I5, I6.
  assert (EP := fun a => pos_lim_exact h _ _ _ _ a Hh B Z1 Z2).
  assert (EV := fun a => via_lim_exact h (vget (p_ddqmax s) i) (vget (p_qmin s) i) (vget (p_qmax s) i) (last_of na q i) (last_of na v i) a Hh HA).
  assert (EX := fun a => vel_lim_exact' (p_ivel s) h (vget (p_dqmax s) i) (last_of na v i) a Hh).
  assert (EY := fun a => acc_lim_exact (p_iacc s) (vget (p_ddqmax s) i) a).
  rewrite (resolve_exact _ _ _ _ a0) by (first [apply EP|apply EV|apply EX|apply EY]; assumption).
  rewrite EP, EV, EX, EY. reflexivity.
Qed.

(** ** Closed loop *)
(** [q'], [v']: the joints after time [t] under acceleration [y]. *)
Definition moved (nv na : nat) (q v : vec Rnum) (y : nat -> R) (t : R) (q' v' : vec Rnum) : Prop :=
  vlen q' = vlen q /\ vlen v' = vlen v /\
  forall i, (i < na)%nat ->
    last_of na q' i = pos_at (last_of na q i) (last_of na v i) (y (nv - na + i)%nat) t /\
    last_of na v' i = vel_at (last_of na v i) (y (nv - na + i)%nat) t.
(** Control steps: the task is computed in the current state, any acceleration that
    satisfies its constraint is applied for any duration up to [h]. *)
Inductive controlled (nv na : nat) (h : R) : rpva * vec Rnum * vec Rnum -> rpva * vec Rnum * vec Rnum -> Prop :=
| ctl_here x : controlled nv na h x x
| ctl_step s q v s1 q1 v1 s2 q2 v2 y t : controlled nv na h (s, q, v) (s1, q1, v1) ->
    rstep s1 (PCompute q1 v1) = Ret s2 tt -> sat (p_c s2) y -> 0 <= t <= h -> moved nv na q1 v1 y t q2 v2 ->
    controlled nv na h (s, q, v) (s2, q2, v2).
(** Joint limits that leave room: the range is at least A h^2 and the velocity limit at
    least A h. *)
Definition roomy (s : rpva) (h : R) (i : nat) : Prop :=
  let A := vget (p_ddqmax s) i in
  0 < A /\ A * (h * h) <= vget (p_qmax s) i - vget (p_qmin s) i /\
  (if p_ivel s then A * h <= vget (p_dqmax s) i else A <= 10 ^ 10) /\ (p_iacc s = false -> A <= 10 ^ 10).
Definition safe_state (s : rpva) (na : nat) (q v : vec Rnum) : Prop :=
  forall i, (i < na)%nat ->
    stoppable (vget (p_ddqmax s) i) (vget (p_qmin s) i) (vget (p_qmax s) i) (last_of na q i) (last_of na v i) /\
    (p_ivel s = true -> - vget (p_dqmax s) i <= last_of na v i <= vget (p_dqmax s) i).
Lemma imposed_exists (s : rpva) h i qi vi : 0 < h -> roomy s h i ->
  stoppable (vget (p_ddqmax s) i) (vget (p_qmin s) i) (vget (p_qmax s) i) qi vi ->
  (p_ivel s = true -> - vget (p_dqmax s) i <= vi <= vget (p_dqmax s) i) ->
  exists a, imposed s h i qi vi a.
Proof.
  intros Hh (HA & HW & HV & HC) HS HM. set (A := vget (p_ddqmax s) i) in *. apply stoppable_iff in HS; [|lra].
  set (m := if p_ivel s then vget (p_dqmax s) i else A * h + Rabs vi).
  destruct (feasible h A (vget (p_qmin s) i) (vget (p_qmax s) i) m qi vi) as (a & S & V & M & Y); try assumption.
  - unfold m. destruct (p_ivel s); [exact HV|]. assert (0 <= Rabs vi) by apply Rabs_pos. lra.
  - unfold m. destruct (p_ivel s); [apply HM; reflexivity|]. assert (0 <= A * h) by (apply Rmult_le_pos; lra).
    unfold Rabs. destruct (Rcase_abs vi); lra.
  - exists a. unfold imposed. fold A. split; [exact S|]. split; [exact V|]. unfold m in M. split.
    + destruct (p_ivel s); [exact M|]. lra.
    + destruct (p_iacc s); [exact Y|]. specialize (HC eq_refl). lra.
Qed.
Lemma controlled_keeps nv na h x z : controlled nv na h x z ->
  let '(s, q, v) := x in let '(s', q', v') := z in
  forall name dt, h = 2 * dt -> (na <= nv)%nat -> pmade steady name nv na dt s -> p_ipos s = true -> p_ivia s = true ->
  (forall i, (i < na)%nat -> roomy s h i) -> (na <= vlen q)%nat -> (na <= vlen v)%nat -> safe_state s na q v ->
  pmade steady name nv na dt s' /\ same_pparams s s' /\ vlen q' = vlen q /\ vlen v' = vlen v /\ safe_state s na q' v'.
Proof.
  induction 1 as [[[s q] v]|s q v s1 q1 v1 s2 q2 v2 y t HC IH E HS Ht HMv].
  - intros name dt _ _ Hm _ _ _ _ _ HS. split; [exact Hm|]. split; [repeat split|]. auto.
  - intros name dt Eh Hn Hm HP HV HR Hq Hv HS0.
    destruct (IH name dt Eh Hn Hm HP HV HR Hq Hv HS0) as (M1 & P1 & LQ & LV & S1).
    destruct (pmade_inv _ _ _ _ _ Hn M1) as (Hd & J1 & _). assert (Hh : 0 < h) by lra.
    destruct P1 as (P1 & P2 & P3 & P4 & P5 & P6 & P7 & P8 & P9 & P10 & P11).
    destruct (pva_compute_ok s1 q1 v1) as (t2 & E' & (T1 & T2 & T3 & T4 & T5 & T6 & T7 & T8 & T9 & T10 & T11) & _); [lia|lia|]. rewrite E' in E. injection E as <-.
    assert (MM : pmade steady name nv na dt t2).
    { destruct M1 as (jk & s0 & H0 & Hr). exists jk, s0. split; [exact H0|]. eapply reach_step with (o := PCompute q1 v1); [exact Hr|exact I|]. rewrite E'. reflexivity. }
    split; [exact MM|]. split; [unfold same_pparams; repeat (split; [congruence|]); congruence|].
    destruct HMv as (L1 & L2 & HMv). split; [congruence|]. split; [congruence|].
    intros i Hi. destruct (HMv i Hi) as [-> ->]. destruct (S1 i Hi) as [Si Vi].
    assert (RA := HR i Hi). assert (IE := imposed_exists s h i _ _ Hh RA Si Vi). destruct RA as (HA & HW & HX & HY).
    assert (EI : forall a, imposed s1 h i (last_of na q1 i) (last_of na v1 i) a <-> imposed s h i (last_of na q1 i) (last_of na v1 i) a).
    { intros a. unfold imposed. rewrite P4, P5, P6, P7, P9, P11. reflexivity. }
    assert (Bi := Si). apply stoppable_iff in Bi; [|lra].
    assert (W := proj1 (pva_sat _ _ _ _ _ _ _ _ Hn M1 E' y) HS i Hi).
    rewrite (row_exact name nv na dt s1 q1 v1 i Hn M1 Hi) in W; [|congruence|congruence|rewrite P7; lra| |].
    2:{ rewrite P4, P5. eapply brake_inside. exact Bi. }
    2:{ destruct IE as [a Ia]. exists a. rewrite <- Eh. apply EI. exact Ia. }
    rewrite <- Eh in W. apply EI in W. destruct W as (Ws & Wv & Wm & _).
    split.
    + apply stoppable_iff; [lra|]. apply (brake_kept h); try assumption. lra.
    + intros X. rewrite X in Wm. specialize (Vi X). unfold vel_at in *. destruct (Rle_dec 0 (y (nv - na + i)%nat)); split; nra.
Qed.
(** From a safe state, whatever admissible accelerations are applied for however many
    steps: the joints stay stoppable and inside their limits, at every instant, and the
    task always leaves at least one acceleration. *)
Theorem closed_loop_safe name nv na dt (s s' : rpva) (q v q' v' : vec Rnum) : (na <= nv)%nat -> pmade steady name nv na dt s ->
  p_ipos s = true -> p_ivia s = true -> (forall i, (i < na)%nat -> roomy s (2 * dt) i) ->
  (na <= vlen q)%nat -> (na <= vlen v)%nat -> safe_state s na q v ->
  controlled nv na (2 * dt) (s, q, v) (s', q', v') ->
  safe_state s na q' v' /\
  exists s2, rstep s' (PCompute q' v') = Ret s2 tt /\ (exists y, sat (p_c s2) y) /\
    forall y i, sat (p_c s2) y -> (i < na)%nat ->
      stays (vget (p_qmin s) i) (vget (p_qmax s) i) (last_of na q' i) (last_of na v' i) (y (nv - na + i)%nat) (2 * dt).
Proof.
  intros Hn Hm HP HV HR Hq Hv HS HC.
  destruct (controlled_keeps _ _ _ _ _ HC name dt eq_refl Hn Hm HP HV HR Hq Hv HS) as (M1 & P1 & LQ & LV & S1).
  split; [exact S1|]. destruct (pmade_inv _ _ _ _ _ Hn M1) as (Hd & J1 & _). assert (Hh : 0 < 2 * dt) by lra.
  destruct P1 as (P1 & P2 & P3 & P4 & P5 & P6 & P7 & P8 & P9 & P10 & P11).
  destruct (pva_compute_ok s' q' v') as (s2 & E' & _); [lia|lia|]. exists s2. split; [exact E'|].
  assert (RX : forall i, (i < na)%nat -> (exists a, imposed s (2 * dt) i (last_of na q' i) (last_of na v' i) a) /\
     forall a, within (row_of s' q' v' i) a <-> imposed s (2 * dt) i (last_of na q' i) (last_of na v' i) a).
  { intros i Hi. destruct (S1 i Hi) as [Si Vi]. assert (RA := HR i Hi). assert (IE := imposed_exists s (2 * dt) i _ _ Hh RA Si Vi). destruct RA as (HA & HW & HX & HY).
    assert (EI : forall a, imposed s' (2 * dt) i (last_of na q' i) (last_of na v' i) a <-> imposed s (2 * dt) i (last_of na q' i) (last_of na v' i) a).
    { intros a. unfold imposed. rewrite P4, P5, P6, P7, P9, P11. reflexivity. }
    split; [exact IE|]. intros a. rewrite (row_exact name nv na dt s' q' v' i Hn M1 Hi); [apply EI|congruence|congruence|rewrite P7; lra| |].
    - rewrite P4, P5. apply stoppable_iff in Si; [|lra]. eapply brake_inside. exact Si.
    - destruct IE as [b Ib]. exists b. apply EI. exact Ib. }
  split.
  - assert (G : forall n, (n <= na)%nat -> exists y, forall i, (i < n)%nat -> imposed s (2 * dt) i (last_of na q' i) (last_of na v' i) (y (nv - na + i)%nat)).
    { induction n as [|n IH]; intros Hl; [exists (fun _ => 0); intros; lia|]. destruct (IH ltac:(lia)) as [y Hy]. destruct (RX n ltac:(lia)) as [[a Ha] _].
      exists (fun k => if (k =? nv - na + n)%nat then a else y k). intros i Hi. destruct (Nat.eqb_spec (nv - na + i) (nv - na + n)) as [X|X].
      - assert (i = n) by lia. subst. exact Ha.
      - apply Hy. lia. }
    destruct (G na (le_n _)) as [y Hy]. exists y. apply (pva_sat _ _ _ _ _ _ _ _ Hn M1 E'). intros i Hi. apply RX; [exact Hi|]. apply Hy. exact Hi.
  - intros y i Hy Hi. assert (W := proj1 (pva_sat _ _ _ _ _ _ _ _ Hn M1 E' y) Hy i Hi). apply RX in W; [|exact Hi]. apply W.
Qed.
End R.

Section More.
Open Scope R_scope.
(** Staying inside over a step of positive length requires to be inside and not to be
    leaving. *)
Lemma stays_inside qmin qmax q v a h : 0 < h -> stays qmin qmax q v a h -> inside qmin qmax q v.
Proof.
  intros Hh S. assert (S0 := S 0 ltac:(lra)). rewrite pos_at_0 in S0. split; [exact S0|].
  assert (G : forall x b, x < 0 -> exists t, 0 <= t <= h /\ x * t + b * (t * t) / 2 < 0).
  { intros x b Hx. set (B := Rabs b + 1). assert (HB : 0 < B) by (unfold B; assert (0 <= Rabs b) by apply Rabs_pos; lra).
    set (t := Rmin h (- x / B)). assert (H1 : 0 < - x / B) by (apply Rdiv_lt_0_compat; lra).
    assert (Ht : 0 < t) by (unfold t, Rmin; destruct (Rle_dec h (- x / B)); lra).
    assert (T1 : t <= h) by (unfold t; apply Rmin_l). assert (T2 : t <= - x / B) by (unfold t; apply Rmin_r).
    exists t. split; [lra|]. assert (B * t <= - x). { apply Rmult_le_compat_r with (r := B) in T2; [|lra]. unfold Rdiv in T2. rewrite Rmult_assoc, Rinv_l in T2 by lra. lra. }
    assert (b <= B) by (unfold B; assert (b <= Rabs b) by apply Rle_abs; lra).
    assert (b * (t * t) <= B * (t * t)) by (apply Rmult_le_compat_r; [nra|lra]). nra. }
  split; intros E.
  - destruct (Rle_dec 0 v) as [X|X]; [exact X|]. destruct (G v a ltac:(lra)) as (t & Ht & Hl). specialize (S t Ht). unfold pos_at in S. lra.
  - destruct (Rle_dec v 0) as [X|X]; [exact X|]. destruct (G (- v) (- a) ltac:(lra)) as (t & Ht & Hl). specialize (S t Ht). unfold pos_at in S. lra.
Qed.
(** Limits left over from the last computation with the flag set. *)
Definition imposed_any (s : rpva) (h : R) (i : nat) (qi vi a : R) : Prop :=
  (if p_ipos s then stays (vget (p_qmin s) i) (vget (p_qmax s) i) qi vi a h else within (p_pos s i) a) /\
  (if p_ivia s then via_ok h (vget (p_ddqmax s) i) (vget (p_qmin s) i) (vget (p_qmax s) i) qi vi a else within (p_via s i) a) /\
  (if p_ivel s then - vget (p_dqmax s) i <= vel_at vi a h <= vget (p_dqmax s) i else - 10 ^ 10 <= a <= 10 ^ 10) /\
  (if p_iacc s then - vget (p_ddqmax s) i <= a <= vget (p_ddqmax s) i else - 10 ^ 10 <= a <= 10 ^ 10).
Lemma row_exact_any name nv na dt (s : rpva) (q v : vec Rnum) i : (na <= nv)%nat -> pmade steady name nv na dt s -> (i < na)%nat ->
  (p_ivia s = true -> 0 <= vget (p_ddqmax s) i) ->
  (exists a0, imposed_any s (2 * dt) i (last_of na q i) (last_of na v i) a0) ->
  forall a, within (row_of s q v i) a <-> imposed_any s (2 * dt) i (last_of na q i) (last_of na v i) a.
Proof.
  intros Hn Hm Hi HA (a0 & P0 & W0 & X0 & Y0) a.
  destruct (pmade_inv _ _ _ _ _ Hn Hm) as (Hd & I1 & I2 & I3 & I4 & I5 & I6 & _). set (h := 2 * dt) in *.
  assert (Hh : 0 < h) by (unfold h; lra).
  unfold row_of. rewrite I1, I3, I4, I5, I6. set (qi := last_of na q i) in *. set (vi := last_of na v i) in *.
  assert (EP : forall a, within (if p_ipos s then @pos_lim Rnum h (2 / (h * h)) (vget (p_qmin s) i) (vget (p_qmax s) i) qi vi else p_pos s i) a <->
    (if p_ipos s then stays (vget (p_qmin s) i) (vget (p_qmax s) i) qi vi a h else within (p_pos s i) a)).
  { intros b. destruct (p_ipos s); [|reflexivity]. destruct (stays_inside _ _ _ _ _ _ Hh P0) as (B & Z1 & Z2). apply pos_lim_exact; assumption. }
  assert (EV : forall a, within (if p_ivia s then @via_lim Rnum rsqrt h (h * h) (2 * (h * h)) (vget (p_ddqmax s) i) (vget (p_qmin s) i) (vget (p_qmax s) i) qi vi else p_via s i) a <->
    (if p_ivia s then via_ok h (vget (p_ddqmax s) i) (vget (p_qmin s) i) (vget (p_qmax s) i) qi vi a else within (p_via s i) a)).
  { intros b. destruct (p_ivia s); [|reflexivity]. apply via_lim_exact; auto. }
  assert (EX := fun a => vel_lim_exact' (p_ivel s) h (vget (p_dqmax s) i) vi a Hh).
  assert (EY := fun a => acc_lim_exact (p_iacc s) (vget (p_ddqmax s) i) a).
  rewrite (resolve_exact _ _ _ _ a0) by (first [apply EP|apply EV|apply EX|apply EY]; assumption).
  rewrite EP, EV, EX, EY. reflexivity.
Qed.
(** No conflict: the constraint means exactly the imposed limits. *)
Theorem pva_meaning name nv na dt (s s' : rpva) (q v : vec Rnum) : (na <= nv)%nat -> pmade steady name nv na dt s ->
  rstep s (PCompute q v) = Ret s' tt ->
  (forall i, (i < na)%nat -> p_ivia s = true -> 0 <= vget (p_ddqmax s) i) ->
  (forall i, (i < na)%nat -> exists a, imposed_any s (2 * dt) i (last_of na q i) (last_of na v i) a) ->
  forall y, sat (p_c s') y <-> forall i, (i < na)%nat -> imposed_any s (2 * dt) i (last_of na q i) (last_of na v i) (y (nv - na + i)%nat).
Proof.
  intros Hn Hm E HA HE y. rewrite (pva_sat _ _ _ _ _ _ _ _ Hn Hm E y).
  split; intros H i Hi; specialize (H i Hi); apply (row_exact_any name nv na dt s q v i Hn Hm Hi (HA i Hi) (HE i Hi)); exact H.
Qed.
End More.
(** In particular for the positions. *)
Corollary pva_positions name nv na dt (s s' : rpva) (q v : vec Rnum) : (na <= nv)%nat -> pmade steady name nv na dt s ->
  rstep s (PCompute q v) = Ret s' tt -> p_ipos s = true ->
  (forall i, (i < na)%nat -> p_ivia s = true -> (0 <= vget (p_ddqmax s) i)%R) ->
  (forall i, (i < na)%nat -> exists a, imposed_any s (2 * dt) i (last_of na q i) (last_of na v i) a) ->
  forall y i, sat (p_c s') y -> (i < na)%nat ->
    stays (vget (p_qmin s) i) (vget (p_qmax s) i) (last_of na q i) (last_of na v i) (y (nv - na + i)%nat) (2 * dt).
Proof.
  intros Hn Hm E HP HA HE y i Hy Hi. apply (pva_meaning name nv na dt s s' q v Hn Hm E HA HE) with (i := i) in Hy; [|exact Hi].
  destruct Hy as [Hy _]. rewrite HP in Hy. exact Hy.
Qed.
