(** C112: task weights changed while the exercise biped runs, and the loop of exercizes/test_cop_task.py. *)
From Coq Require Import String List Arith Bool ZArith Lia Reals Lra Permutation.
From Verif Require Import Scalar Outcome Linalg Constraint Formulation FormSpec FormDataSpec FormPhysSpec RSum FormHist FormDecode FormMain SoftTasks SoftOrderR
  Walking WalkingSpec WalkingP WalkingQ BipedPlan BipedBest BipedSizes CopWalk CopWalkP Prop_BipedPlan.
Import ListNotations.
Open Scope string_scope.
Open Scope list_scope.
Open Scope nat_scope.

(** A biped as the constructor leaves it. *)
Definition fresh (dbg : bool) (C : conf Rnum) (nv na : nat) (fmin fmax : R) (b0 : biped Rnum) : Prop :=
  exists (M0 : mat Rnum) H0 nf nf' (e0 e1 : env Rnum),
    FormMain.robot_ok nv M0 H0 /\ conf_ok C /\ sizes_ok nv e0 /\ sizes_ok nv e1 /\ whole e0 /\ whole e1 /\
    biped_new dbg C nv na M0 H0 (@six Rnum "contact_rfoot" fmin fmax nf) (@six Rnum "contact_lfoot" fmin fmax nf') e0 e1 = Some b0.

(** Feet are added and removed and weights are set in any order within the rules [fair]: every call
    returns; updateTaskWeight answers true for the soft tasks and false for the two bounds, which are
    hard or absent. *)
Theorem C112_returns : forall dbg (C : conf Rnum) nv na fmin fmax b0 l b c,
  fresh dbg C nv na fmin fmax b0 -> ran (fair C nv na) dbg C b0 l b -> fair C nv na b c -> exists b' r, cstep dbg C b c = Ret b' r /\ answer_ok c r.
Proof.
  intros dbg C nv na fmin fmax b0 l b c (M0 & H0 & nf & nf' & e0 & e1 & A1 & A2 & A3 & A4 & A5 & A6 & A7).
  exact (ran_next dbg nv na M0 H0 fmin fmax nf nf' A1 C e0 e1 b0 A2 A3 A4 A5 A6 A7 l b c).
Qed.
Print Assumptions C112_returns.
(** After such calls the solution of a period is the possible motion of least price for the weights
    given last, the only one with a regularised back-end, and the getters read it. *)
Theorem C112_best : forall dbg (C : conf Rnum) nv na fmin fmax b0 l b t e b' out r v,
  fresh dbg C nv na fmin fmax b0 -> ran (fair C nv na) dbg C b0 l b ->
  let on := objs (b_rf b) (b_lf b) in let C' := weights C l in
  sized C nv na on e -> whole e -> cstep dbg C b (Do (Compute t e)) = Ret b' out -> answered (b_f b') r v ->
  exists place, placed on place /\ best C' nv na fmin fmax on place e r (vget v) /\
    ((0 < r)%R -> (0 <= w_forceRef C)%R -> forall z, best C' nv na fmin fmax on place e r z -> forall i, i < nv + 12 * List.length on -> z i = vget v i) /\
    (forall k g s1 s2 u, vlen v = nv + 12 * List.length on -> gets (b_f b') k v = Some s1 -> get s1 g v = Ret s2 u -> reads nv na on place e v g u).
Proof.
  intros dbg C nv na fmin fmax b0 l b t e b' out r v (M0 & H0 & nf & nf' & e0 & e1 & A1 & A2 & A3 & A4 & A5 & A6 & A7) R on C' Z We Es.
  exact (ran_best dbg nv na M0 H0 fmin fmax nf nf' A1 C e0 e1 b0 A2 A3 A4 A5 A6 A7 l b b' t e out R Z We Es r v).
Qed.
Print Assumptions C112_best.
(** Whether a period has an answer does not depend on the weights. *)
Theorem C112_answer : forall dbg (C : conf Rnum) nv na fmin fmax b0 l b t e b' out,
  fresh dbg C nv na fmin fmax b0 -> ran (fair C nv na) dbg C b0 l b -> let on := objs (b_rf b) (b_lf b) in
  sized C nv na on e -> whole e -> cstep dbg C b (Do (Compute t e)) = Ret b' out -> (0 <= w_forceRef C)%R ->
  (forall place, placed on place -> exists z, possible C nv na fmin fmax on place e z) -> exists v, answered (b_f b') reg8 v.
Proof.
  intros dbg C nv na fmin fmax b0 l b t e b' out (M0 & H0 & nf & nf' & e0 & e1 & A1 & A2 & A3 & A4 & A5 & A6 & A7) R on Z We Es.
  exact (ran_answer dbg nv na M0 H0 fmin fmax nf nf' A1 C e0 e1 b0 A2 A3 A4 A5 A6 A7 l b b' t e out R Z We Es).
Qed.
Print Assumptions C112_answer.

(** Consequences for the motions C112_best speaks of. Raising the weight of the centre of pressure never
    makes its error larger; with weight 0 its reference has no influence. *)
Definition with_cop (C : conf Rnum) (w : R) : conf Rnum :=
  @mkConf Rnum (w_com C) w (w_am C) (w_foot C) (w_contact C) (w_posture C) (w_forceRef C) (w_torque_bounds C) (w_joint_bounds C) (n_posture C).
Definition with_pressure (e : env Rnum) (c : constr Rnum) : env Rnum :=
  mkEnv (e_mass e) (e_nle e) (e_cmotion e) (e_gen e) (e_cforce e) (e_creg e) (fun id => if id =? 1 then c else e_task e id) (e_assoc e) (e_meas e).
Theorem C112_raise : forall (C : conf Rnum) nv na fmin fmax on place e r w w' x x', (w < w')%R ->
  best (with_cop C w) nv na fmin fmax on place e r x -> best (with_cop C w') nv na fmin fmax on place e r x' ->
  (gap (e_task e 1) (fun k => x' (nv + k)%nat) <= gap (e_task e 1) (fun k => x (nv + k)%nat))%R.
Proof.
  intros C nv na fmin fmax on place e r w w' x x' Hw [P M] [P' M'].
  assert (Q : forall v v' z, possible (with_cop C v) nv na fmin fmax on place e z -> possible (with_cop C v') nv na fmin fmax on place e z) by (intros v v' z H; destruct H; constructor; assumption).
  specialize (M x' (Q _ _ _ P')). specialize (M' x (Q _ _ _ P)). unfold price in M, M'. cbn [with_cop w_com w_cop w_am w_posture w_foot] in M, M'.
  change (foot_price (with_cop C w)) with (foot_price C) in M. change (foot_price (with_cop C w')) with (foot_price C) in M'. nra.
Qed.
Print Assumptions C112_raise.
Theorem C112_silent : forall (C : conf Rnum) nv na fmin fmax on place e c r x,
  best (with_cop C 0) nv na fmin fmax on place e r x <-> best (with_cop C 0) nv na fmin fmax on place (with_pressure e c) r x.
Proof.
  intros C nv na fmin fmax on place e c r x.
  assert (P : forall z, price (with_cop C 0) nv on place (with_pressure e c) z = price (with_cop C 0) nv on place e z) by (intros z; unfold price; change (foot_price (with_cop C 0) nv place (with_pressure e c)) with (foot_price (with_cop C 0) nv place e); cbn [with_cop w_com w_cop w_am w_posture w_foot with_pressure e_task Nat.eqb]; rewrite !Rmult_0_l; reflexivity).
  assert (Q : forall z, possible (with_cop C 0) nv na fmin fmax on place e z <-> possible (with_cop C 0) nv na fmin fmax on place (with_pressure e c) z) by (intros z; split; intros H; destruct H; constructor; assumption).
  split; intros [B1 B2]; (split; [apply Q, B1|]); intros z Hz; specialize (B2 z (proj1 (Q z) Hz)) || specialize (B2 z (proj2 (Q z) Hz)); rewrite !P in *; exact B2.
Qed.
Print Assumptions C112_silent.

(** The loop, when the first phase is on the right foot and the last two samples agree: no call
    fails; both feet are down before the start, then the one named by contact_phase, then both again
    from N on; in each iteration the answer is the best motion, with the weight [w] for the centre of
    pressure from the start on and the configured one before. *)
Theorem C112_walk : forall dbg (C : conf Rnum) nv na fmin fmax N ph (w : R) b0 i0,
  1 <= N -> ph 0 = PRight -> ph (N - 1) = ph (N - 2) -> (0 <= w)%R -> (i0 <= 0)%Z -> fresh dbg C nv na fmin fmax b0 ->
  forall l, let i := (i0 + Z.of_nat (List.length l))%Z in let prog := cop_loop N ph (w : Rnum) i0 l ++ cop_switch N ph (w : Rnum) i in
  (forall l1 c l2 b, prog = l1 ++ c :: l2 -> ran (fed C nv na) dbg C b0 l1 b -> fed C nv na b c -> exists b' r, cstep dbg C b c = Ret b' r /\ answer_ok c r) /\
  (forall b, ran (fed C nv na) dbg C b0 prog b ->
     (b_rf b, b_lf b) = cop_support N ph i /\ stands (cop_conf C w i) nv na (b_rf b) (b_lf b) (b_f b) /\
     forall t e b' out r v, let on := objs (b_rf b) (b_lf b) in
       sized C nv na on e -> whole e -> cstep dbg C b (Do (Compute t e)) = Ret b' out -> answered (b_f b') r v ->
       exists place, placed on place /\ best (cop_conf C w i) nv na fmin fmax on place e r (vget v)).
Proof.
  intros dbg C nv na fmin fmax N ph w b0 i0 HN Hp Hl Hw Hi Fr l i prog. assert (Fr' := Fr). destruct Fr' as (M0 & H0 & nf & nf' & e0 & e1 & A1 & A2 & A3 & A4 & A5 & A6 & A7). split.
  - exact (walk_next dbg nv na M0 H0 fmin fmax nf nf' A1 C e0 e1 b0 A2 A3 A4 A5 A6 A7 N ph w i0 l HN Hp Hw Hi Hl).
  - intros b R. destruct (walk_end dbg nv na M0 H0 fmin fmax nf nf' A1 C e0 e1 b0 A2 A3 A4 A5 A6 A7 N ph w i0 l HN Hp Hw Hi Hl b R) as (Q & F & W & S).
    split; [exact F|]. split; [exact S|]. intros t e b' out r v on Z We Es A.
    destruct (C112_best dbg C nv na fmin fmax b0 prog b t e b' out r v Fr Q Z We Es A) as (place & P1 & P2 & _). exists place. split; [exact P1|]. unfold prog, i in P2. rewrite W in P2. exact P2.
Qed.
Print Assumptions C112_walk.

(** With data of the right sizes for the feet on the ground in each iteration, and any getters on
    vectors of the right length, the loop runs through (it stops before i = N, or the last two samples agree). *)
Theorem C112_runs : forall dbg (C : conf Rnum) nv na fmin fmax N ph (w : R) b0 i0,
  1 <= N -> ph 0 = PRight -> (0 <= w)%R -> (i0 <= 0)%Z -> fresh dbg C nv na fmin fmax b0 ->
  forall l, ((Z.of_nat N < i0 + Z.of_nat (List.length l))%Z -> ph (N - 1) = ph (N - 2)) -> supplied C nv na N ph i0 l -> exists b, ran (fed C nv na) dbg C b0 (cop_loop N ph (w : Rnum) i0 l) b.
Proof.
  intros dbg C nv na fmin fmax N ph w b0 i0 HN Hp Hw Hi (M0 & H0 & nf & nf' & e0 & e1 & A1 & A2 & A3 & A4 & A5 & A6 & A7) l.
  exact (walk_runs dbg nv na M0 H0 fmin fmax nf nf' A1 C e0 e1 b0 A2 A3 A4 A5 A6 A7 N ph w i0 l HN Hp Hw Hi).
Qed.
Print Assumptions C112_runs.

(** The switch at i = N asks contact_phase[N-1], but the changes are followed only up to N-2: if the
    last sample is on the other foot, the foot already down is added again instead of the missing one. *)
Theorem C112_end_refuted : forall dbg (C : conf Rnum) nv na fmin fmax N ph (w : R) b0 i0 l b,
  1 <= N -> ph 0 = PRight -> ph (N - 1) <> ph (N - 2) -> (0 <= w)%R -> (i0 <= 0)%Z -> fresh dbg C nv na fmin fmax b0 ->
  (i0 + Z.of_nat (List.length l) = Z.of_nat N)%Z -> ran (fed C nv na) dbg C b0 (cop_loop N ph (w : Rnum) i0 l) b ->
  let right := match ph (N - 2) with PRight => true | PLeft => false end in
  let foot := if right then "contact_rfoot" else "contact_lfoot" in let c := Do (if right then AddRF n0 else AddLF n0) in
  (b_rf b, b_lf b) = (right, negb right) /\ cop_switch N ph (w : Rnum) (Z.of_nat N) = [c] /\
  exists b' r, cstep dbg C b c = Ret b' r /\ (b_rf b', b_lf b') = (right, negb right) /\ contact_names (b_f b') = [foot; foot] /\ nVar (b_f b') = nv + 24.
Proof.
  intros dbg C nv na fmin fmax N ph w b0 i0 l b HN Hp Hl Hw Hi (M0 & H0 & nf & nf' & e0 & e1 & A1 & A2 & A3 & A4 & A5 & A6 & A7) Ei R right foot c.
  assert (Q := wrong_end dbg nv na M0 H0 fmin fmax nf nf' A1 C e0 e1 b0 A2 A3 A4 A5 A6 A7 N ph w i0 l HN Hp Hw Hi b Hl Ei R). cbv zeta in Q. rewrite Ei in Q. exact Q.
Qed.
Print Assumptions C112_end_refuted.

(** The robot of C106 with the weights of ex_4_conf.py, and a walk of four samples: right, right, left,
    left, then two more periods; w is 1e-4. *)
Definition steps4 (k : nat) : phase := if k <? 2 then PRight else PLeft.
Definition data_at (k : nat) : Rnum * env Rnum * list (getter * vec Rnum) :=
  ((0%R : Rnum), wE k, [(GAcc, vzero (8 + k)); (GTau, vzero (8 + k)); (GForceOf "contact_rfoot", vzero (8 + k))]).
Definition samples : list (Rnum * env Rnum * list (getter * vec Rnum)) := map data_at [24; 12; 12; 12; 12; 24].
Lemma wE_at rf lf : sized wC 8 2 (objs rf lf) (wE (12 * List.length (objs rf lf))).
Proof. destruct rf, lf; (constructor; try (cbn; intros; lra); repeat split). Qed.
Lemma wE_whole k : whole (wE k).
Proof. intros id. reflexivity. Qed.
Ltac supply := cbn [samples map data_at supplied]; repeat (split; [split; [exact (wE_at _ _)|split; [apply wE_whole|repeat constructor]]|]); exact I.
Example C112_fresh : forall dbg, exists b0, fresh dbg wC 8 2 0 1000000 b0.
Proof.
  intros dbg. assert (S : forall k, sizes_ok 8 (wE k)) by (intros k; repeat split).
  assert (H : FormMain.robot_ok 8 (@mzero Rnum 8 8) (vzero 8)) by (repeat split; discriminate || reflexivity).
  destruct (start_ok dbg whole wC 8 2 (mzero 8 8) (vzero 8) (@six Rnum "contact_rfoot" 0%R 1000000%R (fun _ => 0%R)) (@six Rnum "contact_lfoot" 0%R 1000000%R (fun _ => 0%R)) H (x_six _ _ _) (y_six _ _ _) (wE 0) (wE 0) wC_ok (S 0) (S 0) (wE_whole 0) (wE_whole 0)) as (b & E & _).
  exists b. exists (mzero 8 8), (vzero 8), (fun _ => 0%R), (fun _ => 0%R), (wE 0), (wE 0). repeat (split; [first [exact H|exact wC_ok|apply S|apply wE_whole]|]). exact E.
Qed.
(** The whole loop runs: the robot ends on both feet, with the new weight. *)
Example C112_case : forall dbg, exists b0 b, fresh dbg wC 8 2 0 1000000 b0 /\
  ran (fed wC 8 2) dbg wC b0 (cop_loop 4 steps4 ((1 / 10000)%R : Rnum) (-1) samples) b /\ (b_rf b, b_lf b) = (true, true) /\
  stands (cop_conf wC (1 / 10000) 5) 8 2 true true (b_f b) /\ w_cop wC = 0%R /\ w_cop (cop_conf wC (1 / 10000) 5) = (1 / 10000)%R.
Proof.
  intros dbg. destruct (C112_fresh dbg) as [b0 Fr]. assert (W : (0 <= 1 / 10000)%R) by lra.
  destruct (C112_runs dbg wC 8 2 0 1000000 4 steps4 (1 / 10000) b0 (-1) ltac:(lia) eq_refl W ltac:(lia) Fr samples (fun _ => eq_refl)) as [b R]; [supply|].
  destruct (C112_walk dbg wC 8 2 0 1000000 4 steps4 (1 / 10000) b0 (-1) ltac:(lia) eq_refl eq_refl W ltac:(lia) Fr samples) as [_ H].
  destruct (H b) as (F & S & _); [change (cop_switch 4 steps4 _ _) with (@nil (call Rnum)); rewrite app_nil_r; exact R|].
  exists b0, b. split; [exact Fr|]. split; [exact R|]. change (cop_support 4 steps4 _) with (true, true) in F. split; [exact F|]. injection F as F1 F2. rewrite F1, F2 in S. split; [exact S|]. split; reflexivity.
Qed.
(** A walk whose last sample is on the other foot: the loop comes to i = N. *)
Definition late (k : nat) : phase := if k <? 3 then PRight else PLeft.
Example C112_late : forall dbg, exists b0 b, fresh dbg wC 8 2 0 1000000 b0 /\ late (4 - 1) <> late (4 - 2) /\
  ran (fed wC 8 2) dbg wC b0 (cop_loop 4 late ((1 / 10000)%R : Rnum) (-1) (map data_at [24; 12; 12; 12; 12])) b.
Proof.
  intros dbg. destruct (C112_fresh dbg) as [b0 Fr]. assert (W : (0 <= 1 / 10000)%R) by lra. exists b0.
  destruct (C112_runs dbg wC 8 2 0 1000000 4 late (1 / 10000) b0 (-1) ltac:(lia) eq_refl W ltac:(lia) Fr (map data_at [24; 12; 12; 12; 12])) as [b R]; [cbn; lia|supply|].
  exists b. split; [exact Fr|]. split; [discriminate|exact R].
Qed.
