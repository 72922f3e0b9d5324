(** C106 and C107: the command of the exercise biped in every period, and the feet on the ground. *)
From Coq Require Import String List Arith Bool ZArith Lia Reals Lra.
From Verif Require Import Scalar Outcome Linalg Constraint Formulation FormSpec FormDataSpec FormPhysSpec RSum Masks MaskReal FrameTasks FrameTasksR ContactMotion ContactMotionP FormHist FormDecode FormMain SoftTasks SoftOrderR
  Walking WalkingSpec WalkingP WalkingQ BipedPlan BipedBest BipedFeet BipedSizes.
Import ListNotations.
Open Scope string_scope.
Open Scope list_scope.
Open Scope nat_scope.
Local Notation rsum := (@nsum Rnum).

(** ** C106 the command of one period *)
(** The state [b] is reached by any calls within the rules [used] (feet are added and removed in any
    order, data of the right sizes). *)
Definition started (dbg : bool) (C : conf Rnum) (nv na : nat) (fmin fmax : R) (b : biped Rnum) : Prop :=
  exists (M0 : mat Rnum) H0 nf nf' (e0 e1 : env Rnum) b0,
    FormMain.robot_ok nv M0 H0 /\ conf_ok C /\ sizes_ok nv e0 /\ sizes_ok nv e1 /\ whole e0 /\ whole e1 /\
    biped_new dbg C nv na M0 H0 (@six Rnum "contact_rfoot" fmin fmax nf) (@six Rnum "contact_lfoot" fmin fmax nf') e0 e1 = Some b0 /\
    reach (bstep dbg C) (used C nv na) b0 b.
Theorem C106_returns : forall dbg (C : conf Rnum) nv na fmin fmax b o, started dbg C nv na fmin fmax b -> used C nv na b o -> exists b' r, bstep dbg C b o = Ret b' r.
Proof.
  intros dbg C nv na fmin fmax b o (M0 & H0 & nf & nf' & e0 & e1 & b0 & A1 & A2 & A3 & A4 & A5 & A6 & A7 & A8).
  exact (biped_returns dbg C nv na M0 H0 fmin fmax nf nf' A1 e0 e1 b0 b A2 A3 A4 A5 A6 A7 A8 o).
Qed.
Print Assumptions C106_returns.
(** The solution is the possible motion of least price, the only one with a regularised back-end; the
    getters give its accelerations, its forces, the forces of each foot, and the torques it needs. *)
Theorem C106_best : forall dbg (C : conf Rnum) nv na fmin fmax b t e b' out r v, started dbg C nv na fmin fmax b ->
  let on := objs (b_rf b) (b_lf b) in
  sized C nv na on e -> whole e -> bstep dbg C b (Compute t e) = Ret b' out -> answered (b_f b') r v ->
  exists place, placed on place /\ best C nv na fmin fmax on place e r (vget v) /\
    ((0 < r)%R -> (0 <= w_forceRef C)%R -> forall z, best C nv na fmin fmax on place e r z -> forall i, i < nv + 12 * List.length on -> z i = vget v i) /\
    (forall l g s1 s2 u, vlen v = nv + 12 * List.length on -> gets (b_f b') l v = Some s1 -> get s1 g v = Ret s2 u -> reads nv na on place e v g u).
Proof.
  intros dbg C nv na fmin fmax b t e b' out r v (M0 & H0 & nf & nf' & e0 & e1 & b0 & A1 & A2 & A3 & A4 & A5 & A6 & A7 & A8) on Z We Es.
  exact (biped_best dbg C nv na M0 H0 fmin fmax nf nf' A1 e0 e1 b0 b A2 A3 A4 A5 A6 A7 A8 t e b' out Z We Es r v).
Qed.
Print Assumptions C106_best.
Theorem C106_answer : forall dbg (C : conf Rnum) nv na fmin fmax b t e b' out, started dbg C nv na fmin fmax b ->
  let on := objs (b_rf b) (b_lf b) in
  sized C nv na on e -> whole e -> bstep dbg C b (Compute t e) = Ret b' out -> (0 <= w_forceRef C)%R ->
  (forall place, placed on place -> exists z, possible C nv na fmin fmax on place e z) -> exists v, answered (b_f b') reg8 v.
Proof.
  intros dbg C nv na fmin fmax b t e b' out (M0 & H0 & nf & nf' & e0 & e1 & b0 & A1 & A2 & A3 & A4 & A5 & A6 & A7 & A8) on Z We Es.
  exact (biped_answer dbg C nv na M0 H0 fmin fmax nf nf' A1 e0 e1 b0 b A2 A3 A4 A5 A6 A7 A8 t e b' out Z We Es).
Qed.
Print Assumptions C106_answer.
(** Feet on the ground with hard contacts: their tasks have no influence. *)
Theorem C106_hard_feet : forall (C : conf Rnum) nv na fmin fmax rf lf place (e : env Rnum) r x, let on := objs rf lf in
  (forall o, In o on -> same_rows (e_task e (foot_task o)) (fst (e_cmotion e o)) (snd (e_cmotion e o))) -> (w_contact C < 0)%R ->
  (best C nv na fmin fmax on place e r x <-> least (possible C nv na fmin fmax on place e) (fun z => other_price C nv rf lf place e z + r * bulk nv on z)%R x).
Proof. intros C nv na fmin fmax rf lf place e r x on H W. exact (standing_hard_best C nv na fmin fmax rf lf place e H r x W). Qed.
Print Assumptions C106_hard_feet.
(** With soft contacts: one task per foot, of both weights together, whose acceleration is the mean. *)
Theorem C106_soft_feet : forall (C : conf Rnum) nv na fmin fmax rf lf place (e : env Rnum) r x, let on := objs rf lf in
  (forall o, In o on -> same_rows (e_task e (foot_task o)) (fst (e_cmotion e o)) (snd (e_cmotion e o))) -> (0 <= w_contact C)%R -> (0 < w_contact C + w_foot C)%R ->
  (best C nv na fmin fmax on place e r x <-> least (possible C nv na fmin fmax on place e) (fun z => other_price C nv rf lf place e z + feet_price C rf lf e z + r * bulk nv on z)%R x).
Proof. intros C nv na fmin fmax rf lf place e r x on H W W'. exact (standing_soft_best C nv na fmin fmax rf lf place e H r x W W'). Qed.
Print Assumptions C106_soft_feet.

(** A robot with 8 velocities, 2 of them actuated, the weights of ex_4_conf.py; the forces push the
    base, the com task asks for an acceleration of 1. *)
Definition wC : conf Rnum := @mkConf Rnum 1%R 0%R (1 / 10000)%R 1%R 100%R (1 / 10000)%R (1 / 100000)%R 0%R 0%R 2.
Definition eye (r n : nat) : mat Rnum := @mkMat Rnum r n (fun i j => if i =? j then 1%R else 0%R).
Definition wE (k : nat) : env Rnum :=
  let eqn r n : constr Rnum := mkConstr "" CEq (eye r n) (vzero r) (vzero 0) (vzero 0) in
  mkEnv (eye 8 8) (vzero 8) (fun _ => (eye 6 8, vzero 6)) (fun _ => eye 6 12)
        (fun _ _ _ => (mzero 17 12, vzero 17, vzero 17)) (fun _ => (eye 6 12, vzero 6))
        (fun id => match id with 0 => mkConstr "" CEq (eye 3 8) (@mkVec Rnum 3 (fun _ => 1%R)) (vzero 0) (vzero 0) | 1 => eqn 3 k | 2 => eqn 3 8 | 3 => eqn 2 8 | _ => eqn 6 8 end)
        (fun _ => "") (fun _ => vzero 8).
Lemma wC_ok : conf_ok wC.
Proof. unfold conf_ok. cbn [wC w_com w_cop w_am w_posture w_foot w_torque_bounds w_joint_bounds]. repeat split; try (intros; apply Rleb_true; cbn; lra); apply Rleb_true; cbn; lra. Qed.
Lemma wE_sized : sized wC 8 2 (objs true true) (wE 24).
Proof.
  constructor; try (cbn; intros; lra); repeat split.
Qed.
Lemma wE_rest place : possible wC 8 2 0 1000000 (objs true true) place (wE 24) (fun _ => 0%R).
Proof.
  assert (Z : forall n f, rsum n (fun j => f j * 0)%R = 0%R) by (intros n f; apply rsum_zero; intros; lra).
  constructor; try (cbn; intros; lra).
  - intros i _. unfold torque_for, forces_of. rewrite Z. unfold objs. cbn [app]. rewrite !lsum_cons, !Z. change (lsum _ []) with 0%R. cbn. ring.
  - intros o _. cbn. intros i Hi. cbn [vget vzero]. rewrite Z. cbn. lra.
Qed.
Example C106_case : forall dbg, exists b b' out v, started dbg wC 8 2 0 1000000 b /\ (b_rf b, b_lf b) = (true, true) /\
  sized wC 8 2 (objs (b_rf b) (b_lf b)) (wE 24) /\ whole (wE 24) /\ bstep dbg wC b (@Compute Rnum 0%R (wE 24)) = Ret b' out /\ answered (b_f b') reg8 v /\
  (forall o, In o (objs true true) -> same_rows (e_task (wE 24) (foot_task o)) (fst (e_cmotion (wE 24) o)) (snd (e_cmotion (wE 24) o))).
Proof.
  intros dbg. assert (W : forall k, whole (wE k)) by (intros k id; reflexivity). assert (S : forall k, sizes_ok 8 (wE k)) by (intros k; repeat split). assert (H : FormMain.robot_ok 8 (@mzero Rnum 8 8) (vzero 8)) by (repeat split; discriminate || reflexivity).
  destruct (start_ok dbg whole wC 8 2 (mzero 8 8) (vzero 8) (@six Rnum "contact_rfoot" 0%R 1000000%R (fun _ => 0%R)) (@six Rnum "contact_lfoot" 0%R 1000000%R (fun _ => 0%R)) H (x_six _ _ _) (y_six _ _ _) (wE 0) (wE 0) wC_ok (S 0) (S 0) (W 0) (W 0)) as (b & E & A & B & F).
  exists b. assert (St : started dbg wC 8 2 0 1000000 b) by (exists (mzero 8 8), (vzero 8), (fun _ => 0%R), (fun _ => 0%R), (wE 0), (wE 0), b; repeat (split; [first [exact H|exact wC_ok|apply S|apply W|exact E]|]); constructor).
  assert (Z : sized wC 8 2 (objs (b_rf b) (b_lf b)) (wE 24)) by (rewrite A, B; exact wE_sized).
  destruct (C106_returns dbg wC 8 2 0 1000000 b (@Compute Rnum 0%R (wE 24)) St) as (b' & out & Es); [split; [exact I|split; [exact Z|apply W]]|].
  destruct (C106_answer dbg wC 8 2 0 1000000 b (0%R : Rnum) (wE 24) b' out St Z (W 24) Es) as [v Hv]; [cbn; lra|rewrite A, B; intros place _; exists (fun _ => 0%R); apply wE_rest|].
  exists b', out, v. split; [exact St|]. split; [rewrite A, B; reflexivity|]. split; [exact Z|]. split; [apply W|]. split; [exact Es|]. split; [exact Hv|].
  intros o Ho. cbn in Ho. destruct Ho as [<-|[<-|[]]]; repeat split.
Qed.

(** ** C107 two tasks on one frame *)
(** A contact and a foot task on one frame, after any calls: same rows; together they ask for the mean
    of what each asks for. *)
Theorem C107_mean : forall log3, reads9 log3 -> forall nv nc nf lc lf jc jf, exists c0 f0 sc sf, six_new Rtrunc jc nc nv = Some c0 /\ six_new Rtrunc jf nf nv = Some f0 /\
  run (six_step Rtrunc log3) c0 lc = Some sc /\ run (six_step Rtrunc log3) f0 lf = Some sf /\
  forall d : fdata Rnum, exists sc' sf', six_step Rtrunc log3 sc (MCompute d) = Ret sc' tt /\ six_step Rtrunc log3 sf (MCompute d) = Ret sf' tt /\
    let A := c_mat (h_c (x_h sc')) in let b := c_vec (h_c (x_h sc')) in let c := h_c (x_h sf') in
    same_rows c A b /\ mcols A = nv /\
    forall w w', (0 < w + w')%R -> forall z, eq_gap A (mean w w' b (c_vec c)) z =
      rsum 6 (fun i => let err := accel nv (d_J d) (d_a d) z i - both w w' (goal log3 (told true lc) d) (goal log3 (told true lf) d) i in err * err)%R.
Proof. exact frame_twice. Qed.
Print Assumptions C107_mean.
(** The position held lies between the two references. *)
Theorem C107_between : forall log3 w w' k k' kd kd' wc wf (d : fdata Rnum), (0 < w + w')%R -> (0 < w * k + w' * k')%R ->
  (forall i, i < 3 -> u_kp wc i = k /\ u_kp wf i = k' /\ u_kd wc i = kd /\ u_kd wf i = kd') ->
  forall i, i < 3 -> both w w' (goal log3 wc d) (goal log3 wf d) i =
    ((w * k + w' * k') / (w + w') * rot (tr (d_R d)) (vminus (both (w * k) (w' * k') (u_p wc) (u_p wf)) (d_p d)) i - (w * kd + w' * kd') / (w + w') * d_v d i)%R.
Proof. exact between. Qed.
Print Assumptions C107_between.
(** tsid_biped.py gives the foot tasks no reference, and ex_4_walking.py none before it walks: a foot
    standing at rest where its contact holds it is pulled to the origin of the world. *)
Theorem C107_pulled : forall log3 w w' k k' kd kd' lc lf (d : fdata Rnum), (0 <= w)%R -> (0 < w')%R -> (0 < k')%R -> (0 <= k)%R ->
  (forall i, i < 3 -> u_kp (told true lc) i = k /\ u_kp (told true lf) i = k' /\ u_kd (told true lc) i = kd /\ u_kd (told true lf) i = kd') ->
  forallb (fun o => negb (sets_reference o)) lf = true ->
  (forall i, i < 3 -> d_p d i = u_p (told true lc) i) -> (forall i, i < 3 -> d_v d i = 0%R) ->
  (forall i, i < 3 -> both w w' (goal log3 (told true lc) d) (goal log3 (told true lf) d) i = (- (w' * k' / (w + w')) * rot (tr (d_R d)) (d_p d) i)%R) /\
  (orthogonal (d_R d) -> (forall i, i < 3 -> both w w' (goal log3 (told true lc) d) (goal log3 (told true lf) d) i = 0%R) -> forall i, i < 3 -> d_p d i = 0%R).
Proof. exact pulled. Qed.
Print Assumptions C107_pulled.
(** The calls of tsid_biped.py:54-59 and 108-113 (kp_contact = kp_foot = 10), a foot at (0,-0.096,0). *)
Definition ten : vec Rnum := @mkVec Rnum 6 (fun _ => 10%R).
Definition damp : vec Rnum := @mkVec Rnum 6 (fun _ => (2 * sqrt 10)%R).
Definition at_foot : rvec := fun i => if i =? 1 then (-0.096)%R else 0%R.
Definition flat : rmat := fun i j => if i =? j then 1%R else 0%R.
Definition contact_calls : list (mop Rnum) := [@MKp Rnum (vzero 0) ten; @MKd Rnum (vzero 0) damp; @MRef Rnum flat at_foot].
Definition task_calls : list (mop Rnum) := [@MKp Rnum (vzero 0) ten; @MKd Rnum (vzero 0) damp].
Definition standing : fdata Rnum := @mkFd Rnum flat at_foot (fun _ => 0%R) (fun _ => 0%R) (fun i j => if i =? j then 1%R else 0%R).
Lemma flat_orth : orthogonal flat.
Proof. intros v i Hi. unfold rot, tr, flat. destruct i as [|[|[|i]]]; [| | |lia]; cbn; split; ring. Qed.
Example C107_case : forall log3, (both 100 1 (goal log3 (told true contact_calls) standing) (goal log3 (told true task_calls) standing) 1 = 0.96 / 101)%R.
Proof.
  intros log3. destruct (C107_pulled log3 100 1 10 10 (2 * sqrt 10) (2 * sqrt 10) contact_calls task_calls standing) as [H _]; try lra; try reflexivity.
  - intros i Hi. repeat split.
  - rewrite H by lia. unfold standing, rot, tr, flat, at_foot. cbn. lra.
Qed.
Theorem C107_stays_refuted : ~ (forall log3, reads9 log3 -> forall w w' lc lf (d : fdata Rnum), (0 < w)%R -> (0 < w')%R -> orthogonal (d_R d) ->
  forallb (fun o => negb (sets_reference o)) lf = true -> (forall i, i < 3 -> d_p d i = u_p (told true lc) i) -> (forall i, i < 6 -> d_v d i = 0%R) ->
  forall i, i < 3 -> both w w' (goal log3 (told true lc) d) (goal log3 (told true lf) d) i = 0%R).
Proof.
  intros H. assert (E := C107_case (fun _ _ => 0%R)). rewrite (H (fun _ _ => 0%R)) in E; try lra; try reflexivity; try lia.
  - intros A B _ i _. reflexivity.
  - exact flat_orth.
Qed.
Print Assumptions C107_stays_refuted.
