(** The feet of the exercise biped that stand on the ground: two tasks on one frame, that of the
    contact and that of the foot (exercizes/tsid_biped.py:44-126; contact-6d.cpp:22,199-206;
    task-se3-equality.cpp). *)
From Coq Require Import String List Arith Bool ZArith Lia Permutation Reals Lra.
From Verif Require Import Scalar Outcome Linalg Constraint Formulation FormSpec FormDataSpec FormPhysSpec RSum Masks MaskReal FrameTasks FrameTasksP FrameTasksR FrameRefute FrameSetters ContactMotion ContactMotionP SoftTasks Walking WalkingQ BipedPlan BipedBest.
Import ListNotations.
Open Scope string_scope.
Open Scope list_scope.
Open Scope nat_scope.
Local Notation rsum := (@nsum Rnum).

(** * Specification *)
Definition least (P : (nat -> R) -> Prop) (f : (nat -> R) -> R) (x : nat -> R) : Prop := P x /\ forall z, P z -> (f x <= f z)%R.
Section Spec.
Variables (C : conf Rnum) (nv : nat) (rf lf : bool) (place : nat -> nat) (e : env Rnum).
Local Notation on := (objs rf lf).
Local Notation lifted := (objs (negb rf) (negb lf)).
(** What is traded apart from the feet on the ground. *)
Definition other_price (x : nat -> R) : R :=
  (w_com C * gap (e_task e 0) x + w_cop C * gap (e_task e 1) (fun r => x (nv + r)%nat) + w_am C * gap (e_task e 2) x + w_posture C * gap (e_task e 3) x +
   w_foot C * lsum (fun o => gap (e_task e (foot_task o)) x) lifted +
   w_forceRef C * lsum (fun o => eq_gap (fst (e_creg e o)) (snd (e_creg e o)) (forces_of nv place o x)) on)%R.
(** The feet on the ground, with one task each: the mean of the two. *)
Definition feet_price (x : nat -> R) : R :=
  ((w_contact C + w_foot C) * lsum (fun o => eq_gap (fst (e_cmotion e o)) (mean (w_contact C) (w_foot C) (snd (e_cmotion e o)) (c_vec (e_task e (foot_task o)))) x) on)%R.
End Spec.
(** What one of the tasks asks of the frame in [d]: acceleration, linear then angular. *)
Definition goal (log3 : rmat -> rvec) (w : wish) (d : fdata Rnum) (i : nat) : R :=
  ((if i <? 3 then u_kp w i * rot (tr (d_R d)) (vminus (u_p w) (d_p d)) i else u_kp w i * rot_error log3 (d_R d) (u_R w) (i - 3)) - u_kd w i * d_v d i)%R.
(** Mean of two accelerations, of two placements. *)
Definition both (w w' : R) (a b : nat -> R) (i : nat) : R := ((w * a i + w' * b i) / (w + w'))%R.
Definition sets_reference (o : mop Rnum) : bool := match o with MRef _ _ => true | _ => false end.

(** * Proofs *)
Lemma least_shift (P : (nat -> R) -> Prop) f g k x : (forall z, P z -> f z = (g z + k)%R) -> least P f x <-> least P g x.
Proof.
  intros H. split; intros [A B]; (split; [exact A|]); intros z Hz; specialize (B z Hz); rewrite ?H in * by assumption; [|apply Rplus_le_compat_r; exact B].
  assert (X := H x A). assert (Y := H z Hz). lra.
Qed.
Lemma best_least C nv na fmin fmax on place e r x : best C nv na fmin fmax on place e r x <-> least (possible C nv na fmin fmax on place e) (fun z => price C nv on place e z + r * bulk nv on z)%R x.
Proof. reflexivity. Qed.
Section P.
Variables (C : conf Rnum) (nv na : nat) (fmin fmax : R) (rf lf : bool) (place : nat -> nat) (e : env Rnum).
Local Notation on := (objs rf lf).
Hypothesis Hs : forall o, In o on -> same_rows (e_task e (foot_task o)) (fst (e_cmotion e o)) (snd (e_cmotion e o)).
Lemma price_split x : price C nv on place e x = (other_price C nv rf lf place e x +
  lsum (fun o => Rmax 0 (w_contact C) * eq_gap (fst (e_cmotion e o)) (snd (e_cmotion e o)) x + w_foot C * gap (e_task e (foot_task o)) x) on)%R.
Proof. unfold price, other_price, foot_price, objs. destruct rf, lf; cbn [negb app lsum map fold_right foot_task Nat.eqb]; ring. Qed.
Theorem standing_hard_best r x : (w_contact C < 0)%R ->
  (best C nv na fmin fmax on place e r x <-> least (possible C nv na fmin fmax on place e) (fun z => other_price C nv rf lf place e z + r * bulk nv on z)%R x).
Proof.
  intros W. rewrite best_least. apply (least_shift _ _ _ (lsum (fun o => w_foot C * apart (snd (e_cmotion e o)) (c_vec (e_task e (foot_task o))))%R on)).
  intros z Hz. rewrite price_split. rewrite (lsum_ext (fun o => Rmax 0 (w_contact C) * _ + _)%R (fun o => w_foot C * apart (snd (e_cmotion e o)) (c_vec (e_task e (foot_task o))))%R); [ring|].
  intros o Ho. rewrite (standing_hard C nv na fmin fmax on place e o z W Ho (Hs o Ho) Hz). rewrite Rmax_left by lra. ring.
Qed.
Theorem standing_soft_best r x : (0 <= w_contact C)%R -> (0 < w_contact C + w_foot C)%R ->
  (best C nv na fmin fmax on place e r x <-> least (possible C nv na fmin fmax on place e) (fun z => other_price C nv rf lf place e z + feet_price C rf lf e z + r * bulk nv on z)%R x).
Proof.
  intros W W'. rewrite best_least. apply (least_shift _ _ _ (lsum (fun o => w_contact C * w_foot C / (w_contact C + w_foot C) * apart (snd (e_cmotion e o)) (c_vec (e_task e (foot_task o))))%R on)).
  intros z _. rewrite price_split. unfold feet_price. rewrite <- lsum_scal.
  rewrite (lsum_ext (fun o => Rmax 0 (w_contact C) * _ + _)%R (fun o => (w_contact C + w_foot C) * eq_gap (fst (e_cmotion e o)) (mean (w_contact C) (w_foot C) (snd (e_cmotion e o)) (c_vec (e_task e (foot_task o)))) z
     + w_contact C * w_foot C / (w_contact C + w_foot C) * apart (snd (e_cmotion e o)) (c_vec (e_task e (foot_task o))))%R); [rewrite lsum_plus; ring|].
  intros o Ho. rewrite Rmax_right by lra. apply standing_soft; [exact W'|exact (Hs o Ho)].
Qed.
End P.

(** ** Two tasks on one frame *)
Section F.
Variable log3 : rmat -> rvec.
Hypothesis L9 : reads9 log3.
Variable nv : nat.
Notation xstep := (@se3_step Rnum Rtrunc log3).
Lemma frame_rows name w (s : se3t Rnum) (d : fdata Rnum) s' : agrees log3 name nv true w s -> xstep s (XCompute d) = Ret s' tt ->
  let c := h_c (x_h s') in c_kind c = CEq /\ mrows (c_mat c) = 6 /\ mcols (c_mat c) = nv /\ vlen (c_vec c) = 6 /\
  (forall i j, i < 6 -> mget (c_mat c) i j = d_J d i j) /\ (forall i, i < 6 -> vget (c_vec c) i = (goal log3 w d i - d_a d i)%R).
Proof.
  intros A E c. destruct (rows_of log3 name nv true w s d s' A E) as (K & R & Co & V). repeat (split; [assumption|]).
  destruct (se3_done Rtrunc log3 name nv s d s' (ag_made _ _ _ _ _ _ A) E) as (_ & _ & _ & _ & _ & _ & _ & _ & _ & _ & _ & D).
  assert (O : x_mask s = ones_n 6) by exact (ag_mask _ _ _ _ _ _ A). rewrite O, ons_ones in D. assert (L : x_local s = true) by exact (ag_loc _ _ _ _ _ _ A).
  assert (N : forall i, i < 6 -> nth_error (seq 0 6) i = Some i) by (intros i Hi; rewrite nth_error_nth' with (d := 0) by (rewrite seq_length; exact Hi); rewrite seq_nth by exact Hi; reflexivity).
  split; intros i; [intros j|]; intros Hi; destruct (D i i (N i Hi)) as (D1 & D2 & _).
  - unfold c. rewrite (D1 j). unfold se3_J. rewrite L. reflexivity.
  - unfold c. rewrite D2. unfold se3_drift, se3_ades, se3_pe, se3_ve. rewrite L. cbn [Rnum nadd nsub nmul car].
    destruct A as [M Hm Hp Hd (R1 & R2 & R3 & R4) Hl]. cbn [Rnum car] in Hp, Hd. rewrite (Hp i Hi), (Hd i Hi). unfold goal. destruct (Nat.ltb_spec i 3) as [H3|H3].
    + rewrite err_lin, !inv_lin by exact H3. rewrite (rot_zero _ (x_vd s)), (rot_zero _ (x_ad s)) by (intros; first [apply R3|apply R4]; lia).
      rewrite (rot_ext _ (vminus (x_pd s) (d_p d)) (vminus (u_p w) (d_p d))) by (intros k Hk; unfold vminus; rewrite R1 by exact Hk; reflexivity). unfold Rnum; cbn; ring.
    + remember (i - 3) as j eqn:Ej. assert (i = 3 + j) by lia. subst i. assert (H4 : j < 3) by lia. rewrite (err_ang _ _ _ _ _ j L9 H4), !inv_ang by exact H4.
      rewrite (rot_zero _ (ang (x_vd s))), (rot_zero _ (ang (x_ad s))) by (intros; unfold ang; first [apply R3|apply R4]; lia).
      assert (RE : rot_error log3 (d_R d) (x_Rd s) j = rot_error log3 (d_R d) (u_R w) j).
      { unfold rot_error. apply L9; [|exact H4]. intros a b Ha Hb. apply rot_ext. intros k Hk. apply R2; assumption. }
      rewrite RE. unfold Rnum; cbn; ring.
Qed.
(** The contact after the calls [lc] and the foot task after the calls [lf], on one frame. *)
Theorem frame_twice nc nf lc lf jc jf : exists c0 f0 sc sf, six_new Rtrunc jc nc nv = Some c0 /\ six_new Rtrunc jf nf nv = Some f0 /\
  run (six_step Rtrunc log3) c0 lc = Some sc /\ run (six_step Rtrunc log3) f0 lf = Some sf /\
  forall d : fdata Rnum, exists sc' sf', six_step Rtrunc log3 sc (MCompute d) = Ret sc' tt /\ six_step Rtrunc log3 sf (MCompute d) = Ret sf' tt /\
    let A := c_mat (h_c (x_h sc')) in let b := c_vec (h_c (x_h sc')) in let c := h_c (x_h sf') in
    same_rows c A b /\ mcols A = nv /\
    forall w w', (0 < w + w')%R -> forall z, eq_gap A (mean w w' b (c_vec c)) z =
      rsum 6 (fun i => let err := accel nv (d_J d) (d_a d) z i - both w w' (goal log3 (told true lc) d) (goal log3 (told true lf) d) i in err * err)%R.
Proof.
  destruct (agrees_six log3 nc nv jc) as (c0 & Ec & Ac). destruct (agrees_six log3 nf nv jf) as (f0 & Ef & Af).
  destruct (agrees_run log3 nc nv true lc no_wish c0 Ac) as (sc & Rc & Bc). destruct (agrees_run log3 nf nv true lf no_wish f0 Af) as (sf & Rf & Bf).
  exists c0, f0, sc, sf. repeat (split; [assumption|]). intros d. destruct (can_compute log3 nc nv true _ sc d Bc) as [sc' E1]. destruct (can_compute log3 nf nv true _ sf d Bf) as [sf' E2].
  exists sc', sf'. split; [exact E1|]. split; [exact E2|]. destruct (frame_rows _ _ _ _ _ Bc E1) as (K1 & M1 & N1 & V1 & J1 & G1). destruct (frame_rows _ _ _ _ _ Bf E2) as (K2 & M2 & N2 & V2 & J2 & G2).
  cbv zeta. split; [|split; [exact N1|]].
  - split; [exact K2|]. split; [|split; congruence]. split; [congruence|]. split; [congruence|]. intros i j Hi Hj. rewrite J1, J2 by lia. reflexivity.
  - intros w w' W z. unfold eq_gap, mean. cbn [vlen vget]. rewrite V1. apply rsum_ext. intros i Hi. rewrite N1. fold (told true lc) in G1. fold (told true lf) in G2. rewrite (G1 i Hi), (G2 i Hi).
    rewrite (rsum_ext nv _ (fun j => d_J d i j * z j)%R) by (intros j _; rewrite J1 by exact Hi; reflexivity). unfold accel, both.
    match goal with |- (?a * ?a = ?b * ?b)%R => assert (X : a = b) by (field; lra); rewrite X; reflexivity end.
Qed.

(** With the same gain along the three axes, the position asked for lies between the two. *)
Theorem between w w' k k' kd kd' wc wf (d : fdata Rnum) : (0 < w + w')%R -> (0 < w * k + w' * k')%R ->
  (forall i, i < 3 -> u_kp wc i = k /\ u_kp wf i = k' /\ u_kd wc i = kd /\ u_kd wf i = kd') ->
  forall i, i < 3 -> both w w' (goal log3 wc d) (goal log3 wf d) i =
    ((w * k + w' * k') / (w + w') * rot (tr (d_R d)) (vminus (both (w * k) (w' * k') (u_p wc) (u_p wf)) (d_p d)) i - (w * kd + w' * kd') / (w + w') * d_v d i)%R.
Proof.
  intros W Wk G i Hi. unfold both at 1, goal. assert (X := proj2 (Nat.ltb_lt i 3) Hi). rewrite X. destruct (G i Hi) as (-> & -> & -> & ->).
  unfold rot, vminus, both. field. split; lra.
Qed.
(** A task that was never given a reference holds the frame at the origin of the world. *)
Lemma never_told l : forallb (fun o => negb (sets_reference o)) l = true -> u_p (told true l) = (fun _ => 0%R) /\ u_R (told true l) = (fun i j => if i =? j then 1%R else 0%R).
Proof.
  unfold told. assert (G : forall w, u_p w = (fun _ => 0%R) /\ u_R w = (fun i j => if i =? j then 1%R else 0%R) -> forallb (fun o => negb (sets_reference o)) l = true ->
    u_p (fold_left (tell true) l w) = (fun _ => 0%R) /\ u_R (fold_left (tell true) l w) = (fun i j => if i =? j then 1%R else 0%R)).
  { induction l as [|o l IH]; intros w [P R] H; [split; assumption|]. cbn [forallb] in H. apply andb_true_iff in H. destruct H as [H1 H2]. cbn [fold_left]. apply IH; [|exact H2].
    destruct o; cbn [tell]; try discriminate; try (destruct (_ =? _)); split; assumption. }
  apply G. split; reflexivity.
Qed.
Lemma rot_tr_zero (Q : rmat) (x : rvec) : orthogonal Q -> (forall i, i < 3 -> rot (tr Q) x i = 0%R) -> forall i, i < 3 -> x i = 0%R.
Proof. intros O H i Hi. rewrite <- (proj1 (O x i Hi)). apply rot_zero. exact H. Qed.
(** The foot stands where its contact holds it, at rest; the foot task has no reference: the foot
    is asked to move, unless it stands at the origin of the world. *)
Theorem pulled w w' k k' kd kd' lc lf (d : fdata Rnum) : (0 <= w)%R -> (0 < w')%R -> (0 < k')%R -> (0 <= k)%R ->
  (forall i, i < 3 -> u_kp (told true lc) i = k /\ u_kp (told true lf) i = k' /\ u_kd (told true lc) i = kd /\ u_kd (told true lf) i = kd') ->
  forallb (fun o => negb (sets_reference o)) lf = true ->
  (forall i, i < 3 -> d_p d i = u_p (told true lc) i) -> (forall i, i < 3 -> d_v d i = 0%R) ->
  (forall i, i < 3 -> both w w' (goal log3 (told true lc) d) (goal log3 (told true lf) d) i = (- (w' * k' / (w + w')) * rot (tr (d_R d)) (d_p d) i)%R) /\
  (orthogonal (d_R d) -> (forall i, i < 3 -> both w w' (goal log3 (told true lc) d) (goal log3 (told true lf) d) i = 0%R) -> forall i, i < 3 -> d_p d i = 0%R).
Proof.
  intros W W' K' K G N P V. assert (Pos : (0 < w' * k')%R) by (apply Rmult_lt_0_compat; assumption). assert (Pos2 : (0 <= w * k)%R) by (apply Rmult_le_pos; assumption).
  assert (E : forall i, i < 3 -> both w w' (goal log3 (told true lc) d) (goal log3 (told true lf) d) i = (- (w' * k' / (w + w')) * rot (tr (d_R d)) (d_p d) i)%R).
  { intros i Hi. rewrite (between w w' k k' kd kd') by (try exact G; try exact Hi; lra). rewrite (V i Hi).
    rewrite (rot_ext _ (vminus (both (w * k) (w' * k') (u_p (told true lc)) (u_p (told true lf))) (d_p d)) (fun j => - (w' * k' / (w * k + w' * k')) * d_p d j)%R).
    - unfold rot. field. split; lra.
    - intros j Hj. unfold vminus, both. destruct (never_told lf N) as [-> _]. rewrite <- (P j Hj). field. lra. }
  split; [exact E|]. intros O H. apply (rot_tr_zero (d_R d) (d_p d) O). intros i Hi. specialize (H i Hi). rewrite (E i Hi) in H. apply Rmult_integral in H. destruct H as [H|H]; [|exact H].
  exfalso. apply Ropp_eq_compat in H. rewrite Ropp_involutive, Ropp_0 in H. assert (0 < w' * k' / (w + w'))%R by (apply Rdiv_lt_0_compat; lra). lra.
Qed.
End F.
