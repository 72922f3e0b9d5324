(** The joint space exercise, exercizes/ex_0_ur5_joint_space_control.py: a robot without free base,
    one posture task in level 1, a reference in motion, the sampled loop of lines 90-124.
    What the solver returns, and how far the joints stay from the reference. *)
From Coq Require Import String List Arith Bool ZArith Reals Lia Lra.
From Verif Require Import Scalar Outcome Linalg Constraint Formulation FormSpec FormPhysSpec RSum FormInv FormMain FormSolver Masks MaskReal JointBounds JointTask JointTasks JointTasksP JointTasksR
  SoftTasks SoftPlan SoftOrder LinearLoop ClosedLoop SampledTrack.
Import ListNotations.
Open Scope list_scope.
Open Scope nat_scope.
Local Notation rsum := (@nsum Rnum).

(** * Specification *)
(** The formulation holds the motion task [t], in level 1, and nothing else. *)
Definition only (s : fstate Rnum) (t : tlevel) : Prop :=
  f_motions s = [t] /\ tl_prio t = 1 /\ f_forces s = [] /\ f_acts s = [] /\ f_contacts s = [].
(** Acceleration the posture task asks for joint [i] (task-joint-posture.cpp:130-138), the joint
    having one number as configuration. *)
Definition asked (p : post Rnum) (q v : vec Rnum) (i : nat) : R :=
  (vget (t_sec p) i - vget (t_kp p) i * (vget q i - vget (t_val p) i) - vget (t_kd p) i * (vget v i - vget (t_der p) i))%R.
(** One period for joint [i]: task with its reference set, compute at the state, formulation and
    solver; [a] is the acceleration of the joint in the solution. *)
Record period (dif : pdif) (dbg : bool) (nv i : nat) (name : string) (neu : vec Rnum) (M0 : mat Rnum) (H0 : vec Rnum) (asc : nat -> string) (w r : R)
  (p : post Rnum) (q v : vec Rnum) (a : R) : Prop := mkPeriod {
  pd_made : tmade Rtrunc dif name neu nv nv nv p;
  pd_sizes : vlen v = nv;
  pd_plan : exists p' e s t y, post_step Rtrunc dif p (TCompute q v) = Ret p' tt /\ planned dbg nv nv M0 H0 asc e s r y /\ only s t /\
    e_task e (tl_task t) = t_c p' /\ soft_weight s (tl_name t) = w /\ a = vget y i }.

(** * The solution *)
Lemma only_free e (s : fstate Rnum) t : f_nu s = 0 -> only s t -> forall z, physical s e z.
Proof.
  intros Nu (Em & Et & Ef & Ea & Ec) z. split.
  - rewrite Nu. lia.
  - rewrite Ec. contradiction.
  - rewrite Ec. contradiction.
  - intros t' Ht H0'. rewrite Em in Ht. destruct Ht as [<-|[]]. congruence.
  - rewrite Ef. contradiction.
  - rewrite Ea. contradiction.
Qed.
Lemma only_physical dbg nv (M0 : mat Rnum) H0 asc e s r y t : planned dbg nv nv M0 H0 asc e s r y -> only s t -> forall z, physical s e z.
Proof. intros HP ON. destruct (plan_facts _ _ _ _ _ _ _ _ _ _ HP) as (_ & _ & _ & _ & Nu). apply (only_free e s t); [lia|exact ON]. Qed.
Lemma only_cost s e t x : only s t -> soft_cost s e x = (soft_weight s (tl_name t) * gap (e_task e (tl_task t)) x)%R.
Proof.
  intros (Em & Et & Ef & Ea & Ec). unfold soft_cost, cost_with. rewrite Em, Ef, Ea, Ec. unfold lsum, motion_cost. simpl. lra.
Qed.
Definition put (x : nat -> R) (i : nat) (a : R) : nat -> R := fun j => if j =? i then a else x j.
Lemma size_put s x i a : i < nVar s -> (size_of s x - size_of s (put x i a) = x i * x i - a * a)%R.
Proof.
  intros Hi. unfold size_of. rewrite <- rsum_minus. rewrite (rsum_single _ i); [|exact Hi|].
  - unfold put. rewrite Nat.eqb_refl. reflexivity.
  - intros j _ Hj. unfold put. apply Nat.eqb_neq in Hj. rewrite Hj. ring.
Qed.
Lemma actives_nodup (m : vec Rnum) : NoDup (actives m).
Proof. apply NoDup_filter, seq_NoDup. Qed.
Section Task.
Variables (dif : pdif) (name : string) (neu : vec Rnum) (nv : nat) (p p' : post Rnum) (q v : vec Rnum).
Hypotheses (HD : respects dif) (Hq : nv <= vlen neu) (HM : tmade Rtrunc dif name neu nv nv nv p) (HE : post_step Rtrunc dif p (TCompute q v) = Ret p' tt).
Lemma task_shape : c_kind (t_c p') = CEq /\ vlen (c_vec (t_c p')) = length (actives (t_mask p)) /\ vlen (t_mask p) = nv /\
  (forall y j i, nth_error (actives (t_mask p)) j = Some i -> rsum (mcols (c_mat (t_c p'))) (fun k => mget (c_mat (t_c p')) j k * y k)%R = y i) /\
  (forall j i, nth_error (actives (t_mask p)) j = Some i -> vget (c_vec (t_c p')) j =
     (vget (t_sec p) i - vget (t_kp p) i * dif (ref_config neu (t_val p)) q i - vget (t_kd p) i * (last_of nv v i - vget (t_der p) i))%R).
Proof.
  assert (I := tmade_inv Rtrunc dif good_ones_R _ _ _ _ _ _ (Nat.le_refl nv) Hq HM).
  assert (L : vlen q = vlen neu /\ nv <= vlen v).
  { assert (E := HE). cbn [post_step] in E. unfold post_compute in E. destruct I as [I1 I2 I3 I4 _ _ _ _ _ _ _ _ _ _ _ _].
    destruct (if t_nqa p <=? _ then _ else _); [|discriminate]. destruct (vlen q =? t_nq p) eqn:EQ; [|discriminate]. apply Nat.eqb_eq in EQ.
    split; [congruence|]. destruct (vtail (mkVec _ _) _); [|discriminate]. cbn [obind] in E. destruct (vtail v (t_na p)) eqn:EV; [|discriminate].
    apply vtail_some in EV as [EV _]. lia. }
  destruct (post_compute_ok Rtrunc dif name neu nv nv nv p q v (Nat.le_refl nv) Hq I (proj1 L) (proj2 L)) as (s1 & E1 & SP & I' & A & B & C & D & _ & _ & _ & F).
  assert (E := HE). cbn [post_step] in E. rewrite E1 in E. injection E as E. subst s1. destruct SP as (_ & _ & _ & _ & _ & EM).
  assert (RR := ti_rows _ _ _ _ _ _ _ I'). rewrite EM in RR. assert (HK := ti_kind _ _ _ _ _ _ _ I').
  split; [exact HK|]. split; [rewrite (ti_vec _ _ _ _ _ _ _ I'), EM; reflexivity|]. assert (LM : vlen (t_mask p) = nv) by apply RR. split; [exact LM|]. split.
  - intros y j i Hj. assert (X := rows_lhs (nv - nv) (fun _ => n1) nv nv (t_mask p) _ _ _ y j i RR). unfold lhs in X. rewrite HK in X.
    rewrite X; [|discriminate|lia|exact Hj]. change (@n1 Rnum) with 1%R. rewrite Nat.sub_diag, Nat.add_0_l. apply Rmult_1_l.
  - intros j i Hj. rewrite (F j i Hj). assert (Hi : i < nv) by (rewrite <- LM; eapply actives_lt, nth_error_In; exact Hj). rewrite D by exact Hi.
    unfold post_des. rewrite (HD _ _ q _ A), Nat.sub_diag, Nat.add_0_l. unfold Rnum; cbn. lra.
Qed.
(** Changing one acceleration changes the error of at most one row. *)
Lemma gap_put x i b : active (t_mask p) i -> i < nv ->
  (gap (t_c p') x - gap (t_c p') (put x i b) =
   let a := vget (t_sec p) i - vget (t_kp p) i * dif (ref_config neu (t_val p)) q i - vget (t_kd p) i * (last_of nv v i - vget (t_der p) i) in
   (x i - a) * (x i - a) - (b - a) * (b - a))%R.
Proof.
  intros Ha Hi. destruct task_shape as (HK & HV & LM & HR & HB).
  assert (HI : In i (actives (t_mask p))) by (apply active_in; split; [lia|exact Ha]). apply In_nth_error in HI as [j Hj].
  unfold gap. rewrite HK. unfold eq_gap. rewrite HV, <- rsum_minus, (rsum_single _ j).
  - rewrite !(HR _ j i Hj), (HB j i Hj). unfold put. rewrite Nat.eqb_refl. reflexivity.
  - apply nth_error_Some. congruence.
  - intros k Hk Hne. destruct (nth_error (actives (t_mask p)) k) as [i'|] eqn:EK; [|apply nth_error_None in EK; lia].
    rewrite !(HR _ k i' EK). unfold put. replace (i' =? i) with false; [ring|]. symmetry. apply Nat.eqb_neq. intros ->.
    apply Hne. apply (proj1 (NoDup_nth_error _) (actives_nodup (t_mask p))); [apply nth_error_Some; congruence|congruence].
Qed.
Lemma gap_off x i b : ~ active (t_mask p) i -> gap (t_c p') (put x i b) = gap (t_c p') x.
Proof.
  intros Ha. destruct task_shape as (HK & HV & LM & HR & HB). unfold gap. rewrite HK. unfold eq_gap. apply rsum_ext. intros k Hk. rewrite HV in Hk.
  destruct (nth_error (actives (t_mask p)) k) as [i'|] eqn:EK; [|apply nth_error_None in EK; lia].
  rewrite !(HR _ k i' EK). unfold put. replace (i' =? i) with false; [reflexivity|]. symmetry. apply Nat.eqb_neq. intros ->.
  apply nth_error_In in EK. apply active_in in EK as [_ EK]. exact (Ha EK).
Qed.
End Task.

Lemma square_min w r a y : (0 < w -> 0 <= r -> w * ((y - a) * (y - a)) + r * (y * y) <= w * ((w / (w + r) * a - a) * (w / (w + r) * a - a)) + r * (w / (w + r) * a * (w / (w + r) * a)) ->
  y = w / (w + r) * a)%R.
Proof.
  intros Hw Hr H. assert (X : (w * ((y - a) * (y - a)) + r * (y * y) - (w * ((w / (w + r) * a - a) * (w / (w + r) * a - a)) + r * (w / (w + r) * a * (w / (w + r) * a))) =
    (w + r) * ((y - w / (w + r) * a) * (y - w / (w + r) * a)))%R) by (field; lra).
  set (d := (y - w / (w + r) * a)%R) in *. assert (D : (d * d <= 0)%R) by (apply Rmult_le_reg_l with (w + r)%R; lra).
  assert (d = 0)%R by (assert (0 <= d * d)%R by apply Rle_0_sqr; apply Rsqr_0_uniq; unfold Rsqr; lra). unfold d in *. lra.
Qed.
Lemma last_all nv (v : vec Rnum) i : vlen v = nv -> last_of nv v i = vget v i.
Proof. intros <-. unfold last_of. rewrite Nat.sub_diag. reflexivity. Qed.
(** What the solver returns: the acceleration asked for, scaled by the weight against the
    regularisation; zero for a joint that is not in the mask. *)
Theorem alone_plan dif dbg nv i name neu (M0 : mat Rnum) H0 asc w r p q v acc : respects dif -> vlen neu = nv -> plain_joint dif nv nv nv i -> i < nv -> (0 < w)%R ->
  period dif dbg nv i name neu M0 H0 asc w r p q v acc ->
  (active (t_mask p) i -> acc = (w / (w + r) * asked p q v i)%R) /\ (~ active (t_mask p) i -> (0 < r)%R -> acc = 0%R).
Proof.
  intros HD Hq HP Hi Hw [HM HV (p' & e & s & t & y & E & PL & ON & ET & EW & ->)]. assert (Hq' : nv <= vlen neu) by lia.
  destruct (plan_is_best _ _ _ _ _ _ _ _ _ _ PL) as (_ & BEST & RG). assert (R0 : (0 <= r)%R) by (destruct RG as [-> | ->]; lra).
  destruct (plan_facts _ _ _ _ _ _ _ _ _ _ PL) as (_ & _ & _ & Nv & _).
  assert (Hi' : i < nVar s) by (unfold nVar; lia).
  assert (CMP : forall b, (w * gap (t_c p') (vget y) + r * (vget y i * vget y i) <= w * gap (t_c p') (put (vget y) i b) + r * (b * b))%R).
  { intros b. assert (X := BEST (put (vget y) i b) (only_physical _ _ _ _ _ _ _ _ _ _ PL ON _)). rewrite !(only_cost s e t _ ON), ET, EW in X.
    assert (Y := size_put s (vget y) i b Hi'). assert (r * size_of s (vget y) - r * size_of s (put (vget y) i b) = r * (vget y i * vget y i) - r * (b * b))%R by (rewrite <- !Rmult_minus_distr_l, Y; ring). lra. }
  split.
  - intros Ha. set (a := asked p q v i). assert (X := CMP (w / (w + r) * a)%R). assert (G := gap_put dif name neu nv p p' q v HD Hq' HM E (vget y) i (w / (w + r) * a)%R Ha Hi). cbv zeta in G.
    assert (EA : (vget (t_sec p) i - vget (t_kp p) i * dif (ref_config neu (t_val p)) q i - vget (t_kd p) i * (last_of nv v i - vget (t_der p) i) = a)%R).
    { destruct (post_sizes dif name neu nv nv p q v p') as [Lq Lv]; try assumption; try lia.
      assert (HP' := HP (ref_config neu (t_val p)) q Hq ltac:(congruence)). rewrite Nat.sub_diag, Nat.add_0_l in HP'. rewrite HP', last_all by exact HV.
      assert (RE := ref_entry neu (t_val p) i). rewrite Lv, Hq, Nat.sub_diag, Nat.add_0_l in RE. rewrite RE by lia. unfold a, asked. ring. }
    rewrite EA in G. apply square_min; [exact Hw|exact R0|].
    set (g1 := gap (t_c p') (vget y)) in *. set (g2 := gap (t_c p') (put _ _ _)) in *.
    assert (H : (w * (g1 - g2) = w * ((vget y i - a) * (vget y i - a) - (w / (w + r) * a - a) * (w / (w + r) * a - a)))%R) by (rewrite G; reflexivity). lra.
  - intros Ha Rp. assert (X := CMP 0%R). rewrite (gap_off dif name neu nv p p' q v HD Hq' HM E (vget y) i 0%R Ha) in X.
    assert (Y : (vget y i * vget y i <= 0)%R) by (apply Rmult_le_reg_l with r; [exact Rp|]; lra).
    apply Rsqr_0_uniq. assert (0 <= vget y i * vget y i)%R by apply Rle_0_sqr. unfold Rsqr. apply Rle_antisym; assumption.
Qed.

(** * The loop *)
(** The whole exercise for joint [i], lines 90-124: reference x with derivatives x1 and x2 read at
    the times n dt, gains kp and 2 sqrt(kp) (lines 35-36), q and v integrated with the mean
    velocity (lines 121-123). *)
Record exercise (dif : pdif) (dbg : bool) (nv i : nat) (name : string) (neu : vec Rnum) (M0 : mat Rnum) (H0 : vec Rnum) (asc : nat -> string) (w r dt kp : R)
  (x x1 x2 : R -> R) (p : nat -> post Rnum) (q v : nat -> vec Rnum) (a : nat -> R) : Prop := mkExercise {
  ex_period : forall n, period dif dbg nv i name neu M0 H0 asc w r (p n) (q n) (v n) (a n);
  ex_active : forall n, active (t_mask (p n)) i;
  ex_kp : forall n, vget (t_kp (p n)) i = kp;
  ex_kd : forall n, vget (t_kd (p n)) i = (2 * sqrt kp)%R;
  ex_ref : forall n, vget (t_val (p n)) i = x (INR n * dt)%R /\ vget (t_der (p n)) i = x1 (INR n * dt)%R /\ vget (t_sec (p n)) i = x2 (INR n * dt)%R;
  ex_q : forall n, vget (q (S n)) i = (vget (q n) i + dt * (vget (v n) i + 1 / 2 * dt * a n))%R;
  ex_v : forall n, vget (v (S n)) i = (vget (v n) i + dt * a n)%R }.
(** Distance that remains. *)
Definition remains (w r dt kp A B : R) : R := ((4 / 3 * dt * B + 3 * (r / (w + r)) * A) / kp)%R.

Lemma step_error (g dt c e d x2 R3 R2 : R) : (0 < g)%R ->
  let u := (e + d / g)%R in let a := (c * (x2 - g * g * e - 2 * g * d))%R in let th := (g * dt)%R in
  let f := (- (dt * dt / 2 * ((1 - c) * x2)) - R3)%R in
  (e + dt * (d + 1 / 2 * dt * a) - dt * dt / 2 * x2 - R3 = (1 - th + c * (th * th) / 2) * e + (th - c * (th * th)) * u + f /\
   e + dt * (d + 1 / 2 * dt * a) - dt * dt / 2 * x2 - R3 + (d + dt * a - dt * x2 - R2) / g =
     (1 + th - 2 * (c * th) - c * (th * th)) * u + (c * th - th + c * (th * th) / 2) * e + (f + (- (dt * ((1 - c) * x2)) - R2) / g))%R.
Proof. intros Hg u a th f. unfold u, a, th, f. split; field; lra. Qed.

Theorem joint_tracks dif dbg nv i name neu (M0 : mat Rnum) H0 asc w r dt kp x x1 x2 A B p q v y :
  respects dif -> vlen neu = nv -> plain_joint dif nv nv nv i -> i < nv -> (0 < w -> 7 * r <= w -> 0 < kp -> 0 < dt -> sqrt kp * dt <= 1 / 2 ->
  thrice x x1 x2 B -> (forall t, 0 <= t -> Rabs (x2 t) <= A) ->
  exercise dif dbg nv i name neu M0 H0 asc w r dt kp x x1 x2 p q v y ->
  let e n := vget (q n) i - x (INR n * dt) in let d n := vget (v n) i - x1 (INR n * dt) in
  let far := Rmax (Rabs (e 0%nat)) (2 * Rabs (e 0%nat + d 0%nat / sqrt kp)) in
  forall n, Rabs (e n) <= (1 - sqrt kp * dt / 2) ^ n * far + remains w r dt kp A B /\
            Rabs (d n) <= sqrt kp * (3 / 2 * ((1 - sqrt kp * dt / 2) ^ n * far) + 2 * remains w r dt kp A B))%R.
Proof.
  intros HD Hq HP Hi Hw Hr Hk Hdt Hth T3 HA [EP EA EK ED ER EQ EV].
  set (g := sqrt kp). assert (G : (g * g = kp)%R) by (apply sqrt_sqrt; lra). assert (G0 : (0 < g)%R) by (apply sqrt_lt_R0; exact Hk). fold g in Hth, ED.
  intros e d far.
  assert (R0 : (0 <= r)%R).
  { destruct (EP 0) as [_ _ (p' & e0 & s & t & y0 & _ & PL & _)]. destruct (plan_is_best _ _ _ _ _ _ _ _ _ _ PL) as (_ & _ & [-> | ->]); lra. }
  set (c := (w / (w + r))%R). assert (C1 : (1 - c = r / (w + r))%R) by (unfold c; field; lra).
  assert (C0 : (0 <= 1 - c)%R) by (rewrite C1; apply Rmult_le_pos; [exact R0|left; apply Rinv_0_lt_compat; lra]).
  assert (C8 : (1 - c <= 1 / 8)%R) by (rewrite C1; apply Rmult_le_reg_r with (w + r)%R; [lra|]; replace (r / (w + r) * (w + r))%R with r by (field; lra); lra).
  assert (A0 : (0 <= A)%R) by (apply Rle_trans with (2 := HA 0%R (Rle_refl 0)); apply Rabs_pos).
  assert (B0 : (0 <= B)%R) by (destruct T3 as (x3 & T3); destruct (T3 0%R (Rle_refl 0)) as (_ & _ & _ & H); apply Rle_trans with (2 := H); apply Rabs_pos).
  set (tn := fun n => (INR n * dt)%R). assert (TN : forall n, (0 <= tn n)%R) by (intros n; apply Rmult_le_pos; [apply pos_INR|lra]).
  assert (TS : forall n, tn (S n) = (tn n + dt)%R) by (intros n; unfold tn; rewrite S_INR; ring).
  set (R3 := fun n => (x (tn n + dt) - x (tn n) - dt * x1 (tn n) - dt * dt / 2 * x2 (tn n))%R).
  set (R2 := fun n => (x1 (tn n + dt) - x1 (tn n) - dt * x2 (tn n))%R).
  assert (TB : forall n, (Rabs (R3 n) <= B * (dt * dt * dt) / 6 /\ Rabs (R2 n) <= B * (dt * dt) / 2)%R).
  { intros n. destruct (taylor x x1 x2 B (tn n) dt T3 (TN n) ltac:(lra)) as (_ & X & Y). split; assumption. }
  assert (Y : forall n, y n = (c * (x2 (tn n) - g * g * e n - 2 * g * d n))%R).
  { intros n. rewrite (proj1 (alone_plan dif dbg nv i name neu M0 H0 asc w r _ _ _ _ HD Hq HP Hi Hw (EP n)) (EA n)). unfold asked. rewrite EK, ED. destruct (ER n) as (-> & -> & ->).
    fold (tn n). fold c. rewrite G. unfold e, d. fold (tn n). reflexivity. }
  set (f := fun n => (- (dt * dt / 2 * ((1 - c) * x2 (tn n))) - R3 n)%R).
  set (h := fun n => (f n + (- (dt * ((1 - c) * x2 (tn n))) - R2 n) / g)%R).
  set (u := fun n => (e n + d n / g)%R).
  assert (ES : forall n, e (S n) = (e n + dt * (d n + 1 / 2 * dt * y n) - dt * dt / 2 * x2 (tn n) - R3 n)%R).
  { intros n. unfold e. fold (tn n) (tn (S n)). rewrite EQ, TS. unfold R3, d. fold (tn n). ring. }
  assert (DS : forall n, d (S n) = (d n + dt * y n - dt * x2 (tn n) - R2 n)%R).
  { intros n. unfold d. fold (tn n) (tn (S n)). rewrite EV, TS. unfold R2. ring. }
  set (de := (dt * dt / 2 * ((1 - c) * A) + B * (dt * dt * dt) / 6)%R). set (du := (de + (dt * ((1 - c) * A) + B * (dt * dt) / 2) / g)%R).
  assert (AX : forall n, (Rabs ((1 - c) * x2 (tn n)) <= (1 - c) * A)%R).
  { intros n. rewrite Rabs_mult, (Rabs_right (1 - c)) by lra. apply Rmult_le_compat_l; [exact C0|]. apply HA, TN. }
  assert (P2 : (0 <= dt * dt / 2)%R) by nra.
  assert (BF : forall n, (Rabs (f n) <= de)%R).
  { intros n. unfold f, de. apply Rle_trans with (1 := Rabs_triang _ _). rewrite !Rabs_Ropp, Rabs_mult, (Rabs_right (dt * dt / 2)) by lra.
    apply Rplus_le_compat; [apply Rmult_le_compat_l; [exact P2|apply AX]|apply TB]. }
  assert (BH : forall n, (Rabs (h n) <= du)%R).
  { intros n. unfold h, du. apply Rle_trans with (1 := Rabs_triang _ _). apply Rplus_le_compat; [apply BF|]. unfold Rdiv. rewrite Rabs_mult, (Rabs_right (/ g)) by (left; apply Rinv_0_lt_compat; exact G0).
    apply Rmult_le_compat_r; [left; apply Rinv_0_lt_compat; exact G0|]. apply Rle_trans with (1 := Rabs_triang _ _). rewrite !Rabs_Ropp, Rabs_mult, (Rabs_right dt) by lra.
    apply Rplus_le_compat; [apply Rmult_le_compat_l; [lra|apply AX]|apply TB]. }
  assert (TH : (0 < g * dt <= 1 / 2)%R) by (split; [apply Rmult_lt_0_compat; assumption|exact Hth]).
  assert (MAIN := bounded_track (g * dt) c de du e u f h TH ltac:(lra)).
  assert (D : (2 * (de + du) / (g * dt) <= remains w r dt kp A B)%R).
  { unfold remains. rewrite <- C1, <- G. unfold du, de.
    replace (2 * (dt * dt / 2 * ((1 - c) * A) + B * (dt * dt * dt) / 6 + (dt * dt / 2 * ((1 - c) * A) + B * (dt * dt * dt) / 6 + (dt * ((1 - c) * A) + B * (dt * dt) / 2) / g)) / (g * dt))%R
      with ((B * dt * (2 / 3 * (g * dt) + 1) + (2 + 2 * (g * dt)) * ((1 - c) * A)) / (g * g))%R by (field; lra).
    apply Rmult_le_compat_r; [left; apply Rinv_0_lt_compat, Rmult_lt_0_compat; assumption|].
    assert (Z1 : (0 <= B * dt)%R) by (apply Rmult_le_pos; lra). assert (Z2 : (0 <= (1 - c) * A)%R) by (apply Rmult_le_pos; assumption). nra. }
  assert (D' : ((2 * du + de) / (g * dt) <= remains w r dt kp A B)%R).
  { apply Rle_trans with (2 := D). apply Rmult_le_compat_r; [left; apply Rinv_0_lt_compat; lra|]. assert (0 <= de)%R by (apply Rle_trans with (2 := BF 0); apply Rabs_pos). lra. }
  intros n. destruct (fun X1 X2 => MAIN X1 X2 BF BH n) as [M1 M2].
  - intros k. rewrite ES, Y. exact (proj1 (step_error g dt c (e k) (d k) (x2 (tn k)) (R3 k) (R2 k) G0)).
  - intros k. unfold u at 1. rewrite ES, DS, Y. exact (proj2 (step_error g dt c (e k) (d k) (x2 (tn k)) (R3 k) (R2 k) G0)).
  - change (Rmax (Rabs (e 0)) (2 * Rabs (u 0))) with far in M1, M2. set (ro := ((1 - g * dt / 2) ^ n * far)%R) in *. split; [lra|].
    replace (d n) with (g * (u n - e n))%R by (unfold u; field; lra). rewrite Rabs_mult, (Rabs_right g) by lra. apply Rmult_le_compat_l; [lra|].
    assert (X := Rabs_triang (u n) (- e n)). rewrite Rabs_Ropp in X. unfold Rminus. lra.
Qed.
(** The reference of the exercise, lines 80-84 and 94-96. *)
Definition wave (q0 am om ph t : R) : R := (q0 + am * sin (om * t + ph))%R.
Definition wave1 (am om ph t : R) : R := (om * am * cos (om * t + ph))%R.
Definition wave2 (am om ph t : R) : R := (- (om * (om * am)) * sin (om * t + ph))%R.
Lemma deriv_lin om ph t : derivable_pt_lim (fun s => om * s + ph)%R t om.
Proof. eapply deriv_val; [apply deriv_plus; [apply (deriv_scal om (fun s => s)), derivable_pt_lim_id|apply deriv_const]|]. ring. Qed.
Lemma deriv_sin om ph t : derivable_pt_lim (fun s => sin (om * s + ph)) t (om * cos (om * t + ph))%R.
Proof. eapply deriv_val; [apply (derivable_pt_lim_comp (fun s => om * s + ph)%R sin); [apply deriv_lin|apply derivable_pt_lim_sin]|]. ring. Qed.
Lemma deriv_cos om ph t : derivable_pt_lim (fun s => cos (om * s + ph)) t (- (om * sin (om * t + ph)))%R.
Proof. eapply deriv_val; [apply (derivable_pt_lim_comp (fun s => om * s + ph)%R cos); [apply deriv_lin|apply derivable_pt_lim_cos]|]. ring. Qed.
Lemma wave_smooth q0 am om ph : thrice (wave q0 am om ph) (wave1 am om ph) (wave2 am om ph) (Rabs (om * om * om * am)).
Proof.
  exists (fun t => - (om * om * om * am) * cos (om * t + ph))%R. intros t _. split; [|split; [|split]].
  - eapply deriv_val; [apply deriv_plus; [apply deriv_const|apply (deriv_scal am (fun s => sin (om * s + ph))), deriv_sin]|]. unfold wave1. ring.
  - eapply deriv_val; [apply (deriv_scal (om * am) (fun s => cos (om * s + ph))), deriv_cos|]. unfold wave2. ring.
  - eapply deriv_val; [apply (deriv_scal (- (om * (om * am))) (fun s => sin (om * s + ph))), deriv_sin|]. ring.
  - rewrite Rabs_mult, Rabs_Ropp. assert (C := COS_bound (om * t + ph)%R). assert (X : (Rabs (cos (om * t + ph)) <= 1)%R) by (apply Rabs_le; lra).
    assert (0 <= Rabs (om * om * om * am))%R by apply Rabs_pos. nra.
Qed.
Lemma wave_acc am om ph t : (Rabs (wave2 am om ph t) <= Rabs (om * om * am))%R.
Proof.
  unfold wave2. rewrite Rabs_mult, Rabs_Ropp. assert (C := SIN_bound (om * t + ph)%R). assert (X : (Rabs (sin (om * t + ph)) <= 1)%R) by (apply Rabs_le; lra).
  replace (om * (om * am))%R with (om * om * am)%R by ring. assert (0 <= Rabs (om * om * am))%R by apply Rabs_pos. nra.
Qed.
Theorem wave_tracked dif dbg nv i name neu (M0 : mat Rnum) H0 asc w r dt kp q0 am om ph p q v y :
  respects dif -> vlen neu = nv -> plain_joint dif nv nv nv i -> i < nv -> (0 < w -> 7 * r <= w -> 0 < kp -> 0 < dt -> sqrt kp * dt <= 1 / 2 ->
  exercise dif dbg nv i name neu M0 H0 asc w r dt kp (wave q0 am om ph) (wave1 am om ph) (wave2 am om ph) p q v y ->
  let e n := vget (q n) i - wave q0 am om ph (INR n * dt) in let d n := vget (v n) i - wave1 am om ph (INR n * dt) in
  let far := Rmax (Rabs (e 0%nat)) (2 * Rabs (e 0%nat + d 0%nat / sqrt kp)) in
  forall n, Rabs (e n) <= (1 - sqrt kp * dt / 2) ^ n * far + remains w r dt kp (Rabs (om * om * am)) (Rabs (om * om * om * am)))%R.
Proof.
  intros HD Hq HP Hi Hw Hr Hk Hdt Hth EX e d far n.
  exact (proj1 (joint_tracks dif dbg nv i name neu M0 H0 asc w r dt kp _ _ _ _ _ p q v y HD Hq HP Hi Hw Hr Hk Hdt Hth (wave_smooth q0 am om ph) (fun t _ => wave_acc am om ph t) EX n)).
Qed.
