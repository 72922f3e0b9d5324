(** C99 and C100: what the weights of the soft tasks mean for the planned motion, and what does not matter. *)
From Coq Require Import String List Arith Bool ZArith Reals Lia Lra.
From Verif Require Import Scalar Outcome Linalg Constraint Formulation FormSpec FormPhysSpec FormMain FormSolver FormWitness SoftTasks SoftPlan SoftSame SoftOrder SoftOrderR FormWeights Doubles.
Import ListNotations.
Open Scope string_scope.
Open Scope list_scope.
Open Scope nat_scope.

(** * C99: soft tasks are traded by their weights *)
Theorem C99_best : forall dbg nv na (M0 : mat Rnum) H0 asc e s r y, planned dbg nv na M0 H0 asc e s r y ->
  physical s e (vget y) /\ (forall z, physical s e z -> (soft_cost s e (vget y) + r * size_of s (vget y) <= soft_cost s e z + r * size_of s z)%R) /\
  (r = 0%R \/ r = (/ 100000000)%R).
Proof. exact plan_is_best. Qed.
Theorem C99_errors : forall dbg nv na (M0 : mat Rnum) H0 asc e s r y, planned dbg nv na M0 H0 asc e s r y -> forall t x,
  (In t (f_motions s) -> error_of (tl_name t) s e x = gap (e_task e (tl_task t)) x) /\
  (In t (f_forces s) -> error_of (tl_name t) s e x = gap (e_task e (tl_task t)) (fun i => x (fst (force_slot s (e_assoc e (tl_task t))) + i)%nat)) /\
  (In t (f_acts s) -> error_of (tl_name t) s e x = gap (e_task e (tl_task t)) (fun i => needed_torque s e x (f_nu s + i)%nat)).
Proof. exact errors. Qed.
Theorem C99_bound : forall dbg nv na (M0 : mat Rnum) H0 asc e s r y, planned dbg nv na M0 H0 asc e s r y -> weights_ok s -> forall n z, physical s e z -> (0 < soft_weight s n)%R ->
  (error_of n s e (vget y) <= error_of n s e z + (others n s e z + r * size_of s z) / soft_weight s n)%R.
Proof. exact plan_bound. Qed.
Theorem C99_met : forall dbg nv na (M0 : mat Rnum) H0 asc e s r y, planned dbg nv na M0 H0 asc e s r y -> weights_ok s -> forall z, physical s e z -> soft_cost s e z = 0%R ->
  forall n, (soft_weight s n * error_of n s e (vget y) <= r * size_of s z)%R /\ (r = 0%R -> (0 < soft_weight s n)%R -> error_of n s e (vget y) = 0%R).
Proof. exact met. Qed.
Theorem C99_update : forall dbg nv na (M0 : mat Rnum) H0 s s2 n w t e s1' s2',
  reach (step dbg) (good dbg) (init nv na M0 H0) s -> FormMain.robot_ok nv M0 H0 -> f_trans s = [] ->
  step dbg s (@OUpdTask Rnum n w) = Ret s2 (OutBool true) ->
  step dbg s (@Formulation.OCompute Rnum t e) = Ret s1' OutUnit -> step dbg s2 (@Formulation.OCompute Rnum t e) = Ret s2' OutUnit ->
  same_things s1' s2' /\ soft_weight s2' n = w /\ forall m, m <> n -> soft_weight s1' m = soft_weight s2' m.
Proof. exact update_effect. Qed.
Theorem C99_heavier : forall dbg1 dbg2 nv na (M1 M2 : mat Rnum) H1 H2 asc1 asc2 e s q r y z,
  planned dbg1 nv na M1 H1 asc1 e s r y -> planned dbg2 nv na M2 H2 asc2 e q r z -> same_things s q -> forces_placed s e ->
  forall n, (forall m, m <> n -> soft_weight s m = soft_weight q m) -> (soft_weight s n < soft_weight q n)%R ->
  (error_of n q e (vget z) <= error_of n s e (vget y))%R /\
  ((0 <= soft_weight s n)%R -> (others n s e (vget y) + r * size_of s (vget y) <= others n q e (vget z) + r * size_of q (vget z))%R).
Proof. exact heavier. Qed.
(** The hypothesis on the weights, from the calls made; over the reals and in binary64. *)
Theorem C99_weights : forall dbg (P : fstate Rnum -> fop Rnum -> Prop) nv na (M0 : mat Rnum) H0 s, (forall q o, P q o -> weights_given o) -> reach (step dbg) P (init nv na M0 H0) s -> weights_ok s.
Proof. exact weights_ok_calls. Qed.
Theorem C99_weights_doubles : forall dbg (P : fstate Dnum -> fop Dnum -> Prop) nv na (M0 : mat Dnum) H0 s, (forall q o, P q o -> weights_given o) -> reach (step dbg) P (init nv na M0 H0) s ->
  forall l en, In l (hqp s) -> In en l -> @nleb Dnum n0 (fst en) = true.
Proof. exact weights_ok_doubles. Qed.
(** updateTaskWeight accepts a negative weight. *)
Example C99_negative : forall dbg, exists s, step dbg (built dbg two_a) (OUpdTask "com" ((-1)%R : Rnum)) = Ret s (OutBool true) /\ ~ weights_ok s.
Proof. exact negative_weight. Qed.
(** Raising a weight from 1 to 4 makes the error strictly smaller, and not zero. *)
Example C99_case : forall dbg, exists y z, planned dbg 3 2 (mzero 3 3) (vzero 3) asc env2 (go env2 dbg two_a) reg8 y /\ planned dbg 3 2 (mzero 3 3) (vzero 3) asc env2 (go env2 dbg (two_a ++ more)) reg8 z /\
  same_things (go env2 dbg two_a) (go env2 dbg (two_a ++ more)) /\ forces_placed (go env2 dbg two_a) env2 /\
  (forall m, m <> "com" -> soft_weight (go env2 dbg two_a) m = soft_weight (go env2 dbg (two_a ++ more)) m) /\ (soft_weight (go env2 dbg two_a) "com" = 1 /\ soft_weight (go env2 dbg (two_a ++ more)) "com" = 4)%R /\
  weights_ok (go env2 dbg two_a) /\ weights_ok (go env2 dbg (two_a ++ more)) /\
  (0 < error_of "com" (go env2 dbg (two_a ++ more)) env2 (vget z) < error_of "com" (go env2 dbg two_a) env2 (vget y))%R.
Proof. exact weight_case. Qed.

(** * C100: the order of the calls does not matter *)
Theorem C100_order_free : forall dbg1 dbg2 nv na (M1 M2 : mat Rnum) H1 H2 asc1 asc2 e s q r y z,
  planned dbg1 nv na M1 H1 asc1 e s r y -> planned dbg2 nv na M2 H2 asc2 e q r z -> same_things s q -> forces_placed s e ->
  (0 < r)%R -> weights_ok s -> (forall n, soft_weight s n = soft_weight q n) ->
  same_motion s q (vget y) (vget z) /\ forall i, needed_torque s e (vget y) i = needed_torque q e (vget z) i.
Proof. exact order_free. Qed.
Example C100_case : forall dbg, exists y z, planned dbg 3 2 (mzero 3 3) (vzero 3) asc env2 (go env2 dbg (two_a ++ force1)) reg8 y /\ planned dbg 3 2 (mzero 3 3) (vzero 3) asc env2 (go env2 dbg (two_b ++ force1)) reg8 z /\
  same_things (go env2 dbg (two_a ++ force1)) (go env2 dbg (two_b ++ force1)) /\
  forces_placed (go env2 dbg (two_a ++ force1)) env2 /\ weights_ok (go env2 dbg (two_a ++ force1)) /\ (forall n, soft_weight (go env2 dbg (two_a ++ force1)) n = soft_weight (go env2 dbg (two_b ++ force1)) n) /\
  (exists t, In t (f_forces (go env2 dbg (two_a ++ force1)))) /\ map cl_obj (f_contacts (go env2 dbg (two_a ++ force1))) <> map cl_obj (f_contacts (go env2 dbg (two_b ++ force1))).
Proof. exact order_case. Qed.
(** Without [forces_placed] this fails: same things, same weights, another motion. *)
Theorem C100_unplaced_refuted : ~ (forall dbg nv na (M0 : mat Rnum) H0 asc e s q r y z,
  planned dbg nv na M0 H0 asc e s r y -> planned dbg nv na M0 H0 asc e q r z -> same_things s q -> (0 < r)%R -> weights_ok s -> (forall n, soft_weight s n = soft_weight q n) ->
  same_motion s q (vget y) (vget z)).
Proof. exact order_refuted. Qed.

Print Assumptions C99_best.
Print Assumptions C99_errors.
Print Assumptions C99_bound.
Print Assumptions C99_met.
Print Assumptions C99_update.
Print Assumptions C99_heavier.
Print Assumptions C99_weights.
Print Assumptions C99_weights_doubles.
Print Assumptions C99_negative.
Print Assumptions C99_case.
Print Assumptions C100_order_free.
Print Assumptions C100_case.
Print Assumptions C100_unplaced_refuted.
