(** Property C111: the demos of the gripper with a closed chain and of the quadruped.  Only
    statements; the proofs are in Sheets.v, SheetBest.v, Demos.v and DemosBest.v. *)
From Coq Require Import String List Arith Bool Reals Lia Lra.
From Verif Require Import Scalar Outcome Linalg Constraint Formulation FormSpec FormDataSpec FormPhysSpec FormMain FormDecode Walking SoftPlan SoftOrderR Demos DemosBest.
From Verif Require RobotModelR.
Import ListNotations.
Open Scope string_scope.
Open Scope list_scope.
Open Scope nat_scope.

(** Gripper: whatever the number of periods, every call returns. *)
Theorem C111_gripper_runs : forall dbg jk nv lim (M0 : mat Rnum) H0 e0, FormMain.robot_ok nv M0 H0 -> robot_data nv e0 -> forall l, Forall (gripper_period jk nv lim) l ->
  exists s, calls dbg (init nv nv M0 H0) (gripper_calls nv e0 l) = Some s.
Proof. exact gripper_runs. Qed.
Print Assumptions C111_gripper_runs.
(** After any number of periods, the next one can be solved when the mass matrix is positive
    definite and no effort limit is negative. *)
Theorem C111_gripper_answers : forall dbg jk nv lim (M0 : mat Rnum) H0 e0, FormMain.robot_ok nv M0 H0 -> robot_data nv e0 -> forall l s t e, Forall (gripper_period jk nv lim) l ->
  calls dbg (init nv nv M0 H0) (gripper_calls nv e0 l) = Some s ->
  gripper_data jk nv lim e -> RobotModelR.posdef nv (mget (e_mass e)) -> (forall q, q < nv -> (0 <= lim q)%R) ->
  exists s' y, step dbg s (@Formulation.OCompute Rnum t e) = Ret s' OutUnit /\ vlen y = nv + 3 /\ planned dbg nv nv M0 H0 (fun _ => "") e s' reg8 y.
Proof. exact gripper_answers. Qed.
Print Assumptions C111_gripper_answers.
(** Any answer of an exact solver: getActuatorForces, called at any time, returns torques within the
    effort limits, exactly zero for the two passive joints; the closing forces lie within 1000; with
    these torques and forces the robot accelerates as announced. *)
Theorem C111_gripper_holds : forall dbg jk nv lim (M0 : mat Rnum) H0 e0, FormMain.robot_ok nv M0 H0 -> robot_data nv e0 -> forall l s t e s' r y g s1 s2 tau, Forall (gripper_period jk nv lim) l ->
  calls dbg (init nv nv M0 H0) (gripper_calls nv e0 l) = Some s ->
  gripper_data jk nv lim e -> step dbg s (@Formulation.OCompute Rnum t e) = Ret s' OutUnit -> planned dbg nv nv M0 H0 (fun _ => "") e s' r y -> vlen y = nv + 3 ->
  gets s' g y = Some s1 -> get s1 GTau y = Ret s2 tau ->
  vlen tau = nv /\ (forall q, q < nv -> 2 <= q -> (Rabs (vget tau q) <= lim q)%R) /\ (forall q, q < nv -> q < 2 -> vget tau q = 0%R) /\
  (forall j, j < 3 -> (-1000 <= vget y (nv + j) <= 1000)%R) /\
  forall i, i < nv -> (@nsum Rnum nv (fun j => mget (e_mass e) i j * vget y j) + vget (e_nle e) i = vget tau i + @nsum Rnum 3 (fun k => jac e 0 k i * vget y (nv + k)%nat))%R.
Proof. exact gripper_holds. Qed.
Print Assumptions C111_gripper_holds.
(** The chain need not stay closed: the program asks this with a weight only.  For two passive joints
    and a closure that needs more than the forces can give, every period returns, an exact solver has
    an answer, and every answer violates the closure. *)
Theorem C111_closed_refuted : forall dbg jk, exists lim (M0 : mat Rnum) H0 e0 e, FormMain.robot_ok 2 M0 H0 /\ robot_data 2 e0 /\ gripper_data jk 2 lim e /\ RobotModelR.posdef 2 (mget (e_mass e)) /\
  (forall q, q < 2 -> (0 <= lim q)%R) /\ forall l s t, Forall (gripper_period jk 2 lim) l -> calls dbg (init 2 2 M0 H0) (gripper_calls 2 e0 l) = Some s ->
  exists s', step dbg s (@Formulation.OCompute Rnum t e) = Ret s' OutUnit /\ (exists y, planned dbg 2 2 M0 H0 (fun _ => "") e s' reg8 y) /\
  forall r y, planned dbg 2 2 M0 H0 (fun _ => "") e s' r y -> ~ eq_holds (fst (e_cmotion e 0)) (snd (e_cmotion e 0)) (vget y).
Proof.
  intros dbg jk. set (lim := fun _ : nat => 5%R). set (e := gripper_env jk lim 3000%R). assert (De : gripper_data jk 2 lim e) by apply gripper_env_data.
  assert (R0 : FormMain.robot_ok 2 (@mzero Rnum 2 2) (@vzero Rnum 2)) by (repeat split). assert (PD : RobotModelR.posdef 2 (mget (e_mass e))) by apply ident_posdef.
  assert (Hl : forall q, q < 2 -> (0 <= lim q)%R) by (intros q _; unfold lim; lra).
  exists lim, (@mzero Rnum 2 2), (@vzero Rnum 2), e, e. split; [exact R0|]. split; [apply De|]. split; [exact De|]. split; [exact PD|]. split; [exact Hl|].
  intros l s t F Es. destruct (gripper_answers dbg jk 2 lim _ _ e R0 (proj1 De) l s t e F Es De PD Hl) as (s' & y & E & _ & P).
  exists s'. split; [exact E|]. split; [exists y; exact P|]. intros r y' P'.
  exact (closure_missed dbg jk lim _ _ e l s t s' r y' 3000%R R0 (proj1 De) ltac:(lra) F Es E P').
Qed.
Print Assumptions C111_closed_refuted.

(** Quadruped: the same for its calls, whichever turns print the forces. *)
Theorem C111_quadruped_runs : forall dbg nv (M0 : mat Rnum) H0 e0, FormMain.robot_ok nv M0 H0 -> robot_data nv e0 -> forall l, Forall (quadruped_period nv) l ->
  exists s, calls dbg (init nv (nv - 6) M0 H0) (quadruped_calls nv e0 l) = Some s.
Proof. exact quadruped_runs. Qed.
Print Assumptions C111_quadruped_runs.
Theorem C111_quadruped_answers : forall dbg nv (M0 : mat Rnum) H0 e0, FormMain.robot_ok nv M0 H0 -> robot_data nv e0 -> forall l s t e, Forall (quadruped_period nv) l ->
  calls dbg (init nv (nv - 6) M0 H0) (quadruped_calls nv e0 l) = Some s -> quadruped_data nv e -> RobotModelR.posdef nv (mget (e_mass e)) ->
  exists s' y, step dbg s (@Formulation.OCompute Rnum t e) = Ret s' OutUnit /\ vlen y = nv + 12 /\ planned dbg nv (nv - 6) M0 H0 (fun _ => "") e s' reg8 y.
Proof. exact quadruped_answers. Qed.
Print Assumptions C111_quadruped_answers.
(** Any answer of an exact solver: each paw pushes with 1 to 100, inside its friction pyramid, and
    the forces of the paws alone explain the motion of the base. *)
Theorem C111_quadruped_holds : forall dbg nv (M0 : mat Rnum) H0 e0, FormMain.robot_ok nv M0 H0 -> robot_data nv e0 -> forall l s t e s' r y, Forall (quadruped_period nv) l ->
  calls dbg (init nv (nv - 6) M0 H0) (quadruped_calls nv e0 l) = Some s -> quadruped_data nv e -> step dbg s (@Formulation.OCompute Rnum t e) = Ret s' OutUnit ->
  planned dbg nv (nv - 6) M0 H0 (fun _ => "") e s' r y ->
  (forall k, k < 4 -> level_pyramid (3 / 10) 1 100 (paw_at nv (vget y) k)) /\
  forall i, i < nv - (nv - 6) -> (@nsum Rnum nv (fun j => mget (e_mass e) i j * vget y j) + vget (e_nle e) i = @nsum Rnum 4 (fun k => @nsum Rnum 3 (fun j => jac e k j i * paw_at nv (vget y) k j)))%R.
Proof. exact quadruped_holds. Qed.
Print Assumptions C111_quadruped_holds.
(** What the getters return in any order: the accelerations, the force of the paw of that name, and
    torques that complete the equations of motion. *)
Theorem C111_quadruped_reads : forall dbg nv (M0 : mat Rnum) H0 e0, FormMain.robot_ok nv M0 H0 -> robot_data nv e0 -> forall l s t e s' y gs s1 s2 g v, Forall (quadruped_period nv) l ->
  calls dbg (init nv (nv - 6) M0 H0) (quadruped_calls nv e0 l) = Some s ->
  quadruped_data nv e -> step dbg s (@Formulation.OCompute Rnum t e) = Ret s' OutUnit -> vlen y = nv + 12 -> gets s' gs y = Some s1 -> get s1 g y = Ret s2 v ->
  match g with
  | GTau => forall q, vlen v = nv - (nv - (nv - 6)) /\ (q < vlen v -> let i := nv - (nv - 6) + q in
      (@nsum Rnum nv (fun j => mget (e_mass e) i j * vget y j) + vget (e_nle e) i = vget v q + @nsum Rnum 4 (fun k => @nsum Rnum 3 (fun j => jac e k j i * paw_at nv (vget y) k j)))%R)
  | GAcc => vlen v = nv /\ forall j, j < nv -> vget v j = vget y j
  | GForce => vlen v = 12 /\ forall j, j < 12 -> vget v j = vget y (nv + j)
  | GForceOf n => forall k, nth_error paw_names k = Some n -> vlen v = 3 /\ forall j, j < 3 -> vget v j = paw_at nv (vget y) k j
  end.
Proof. exact quadruped_reads. Qed.
Print Assumptions C111_quadruped_reads.
(** What the solver is asked for, in the words of the programs: any answer is a best motion among
    those the torques and forces admit, with the weights of the program, and every other motion is
    worse when the back-end is regularised ([r] > 0). *)
Theorem C111_gripper_best : forall dbg jk nv lim M0 H0 e0 l s t e s' r y, FormMain.robot_ok nv M0 H0 -> robot_data nv e0 -> Forall (gripper_period jk nv lim) l ->
  calls dbg (init nv nv M0 H0) (gripper_calls nv e0 l) = Some s -> gripper_data jk nv lim e -> step dbg s (@Formulation.OCompute Rnum t e) = Ret s' OutUnit ->
  planned dbg nv nv M0 H0 (fun _ => "") e s' r y ->
  best (gripper_can nv lim e) (gripper_cost nv e r) (vget y) /\
  ((0 < r)%R -> forall z, best (gripper_can nv lim e) (gripper_cost nv e r) z -> forall i, i < nv + 3 -> z i = vget y i).
Proof. exact gripper_best. Qed.
Print Assumptions C111_gripper_best.
Theorem C111_quadruped_best : forall dbg nv M0 H0 e0 l s t e s' r y, FormMain.robot_ok nv M0 H0 -> robot_data nv e0 -> Forall (quadruped_period nv) l ->
  calls dbg (init nv (nv - 6) M0 H0) (quadruped_calls nv e0 l) = Some s -> quadruped_data nv e -> step dbg s (@Formulation.OCompute Rnum t e) = Ret s' OutUnit ->
  planned dbg nv (nv - 6) M0 H0 (fun _ => "") e s' r y ->
  best (quadruped_can nv e) (quadruped_cost nv e r) (vget y) /\
  ((0 < r)%R -> forall z, best (quadruped_can nv e) (quadruped_cost nv e r) z -> forall i, i < nv + 12 -> z i = vget y i).
Proof. exact quadruped_best. Qed.
Print Assumptions C111_quadruped_best.
(** Data that meet the hypotheses: a gripper with two joints and a quadruped with eight, run for any
    number of periods and then solved. *)
Example C111_gripper_case : forall dbg jk t n, let e := gripper_env jk (fun _ => 5%R) 7%R in
  exists s s' y, calls dbg (init 2 2 (@mzero Rnum 2 2) (@vzero Rnum 2)) (gripper_calls 2 e (repeat (mkPeriod t e (@vzero Rnum 5)) n)) = Some s /\
  step dbg s (@Formulation.OCompute Rnum t e) = Ret s' OutUnit /\ vlen y = 5 /\ planned dbg 2 2 (mzero 2 2) (vzero 2) (fun _ => "") e s' reg8 y.
Proof.
  intros dbg jk t n e. assert (De : gripper_data jk 2 (fun _ => 5%R) e) by apply gripper_env_data. assert (R0 : FormMain.robot_ok 2 (@mzero Rnum 2 2) (@vzero Rnum 2)) by (repeat split).
  assert (F : Forall (gripper_period jk 2 (fun _ => 5%R)) (repeat (mkPeriod t e (@vzero Rnum 5)) n)) by (apply Forall_forall; intros p Hp; apply repeat_spec in Hp; subst p; split; [exact De|reflexivity]).
  destruct (C111_gripper_runs dbg jk 2 (fun _ => 5%R) _ _ e R0 (proj1 De) _ F) as (s & Es). exists s.
  destruct (C111_gripper_answers dbg jk 2 (fun _ => 5%R) _ _ e R0 (proj1 De) _ s t e F Es De (ident_posdef 2) ltac:(intros; lra)) as (s' & y & A). exists s', y. split; [exact Es|exact A].
Qed.
Example C111_quadruped_case : forall dbg t n, let e := quadruped_env 14 in
  exists s s' y, calls dbg (init 14 8 (@mzero Rnum 14 14) (@vzero Rnum 14)) (quadruped_calls 14 e (repeat (true, mkPeriod t e (@vzero Rnum 26)) n)) = Some s /\
  step dbg s (@Formulation.OCompute Rnum t e) = Ret s' OutUnit /\ vlen y = 26 /\ planned dbg 14 8 (mzero 14 14) (vzero 14) (fun _ => "") e s' reg8 y.
Proof.
  intros dbg t n e. assert (De : quadruped_data 14 e) by apply quadruped_env_data. assert (R0 : FormMain.robot_ok 14 (@mzero Rnum 14 14) (@vzero Rnum 14)) by (repeat split).
  assert (F : Forall (quadruped_period 14) (repeat (true, mkPeriod t e (@vzero Rnum 26)) n)) by (apply Forall_forall; intros p Hp; apply repeat_spec in Hp; subst p; split; [exact De|reflexivity]).
  destruct (C111_quadruped_runs dbg 14 _ _ e R0 (proj1 De) _ F) as (s & Es). exists s.
  destruct (C111_quadruped_answers dbg 14 _ _ e R0 (proj1 De) _ s t e F Es De (ident_posdef 14)) as (s' & y & A). exists s', y. split; [exact Es|exact A].
Qed.
