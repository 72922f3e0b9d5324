(** Two small robots for the manipulator program: one joint that moves the end-effector along x. *)
From Coq Require Import String List Arith Bool ZArith Reals Lia Lra.
From Verif Require Import Scalar Outcome Linalg RSum Masks MaskReal JointTasksR FrameTasks FrameTasksR FormMain ExactSolver ArmProgram.
From Verif Require Solvers.
Import ListNotations.
Local Notation rsum := (@nsum Rnum).

Definition c_dif : vec Rnum -> vec Rnum -> nat -> Rnum := fun a b i => if i <? vlen a then (vget b i - vget a i)%R else 0%R.
Definition c_intg (q u : vec Rnum) : vec Rnum := @mkVec Rnum 1 (fun i => (vget q i + vget u i)%R).
Definition c_log3 (A : nat -> nat -> R) (i : nat) : R := 0%R.
Definition c_fk (q v : vec Rnum) : fdata Rnum :=
  @mkFd Rnum (fun a b => if a =? b then 1%R else 0%R) (fun i => if i =? 0 then vget q 0 else 0%R) (fun i => if i =? 0 then vget v 0 else 0%R) (fun _ => 0%R) (fun i _ => if i =? 0 then 1%R else 0%R).
Definition c_one (r : R) : vec Rnum := @mkVec Rnum 1 (fun _ => r).
Definition c_mass (q : vec Rnum) : mat Rnum := @mkMat Rnum 1 1 (fun _ _ => 1%R).
Definition c_mask : vec Rnum := @mkVec Rnum 6 (fun i => if i <? 3 then 1%R else 0%R).
Definition c_ref (t : R) : vec Rnum * vec Rnum * vec Rnum :=
  (@mkVec Rnum 12 (fun i => if i =? 0 then sin t else 0%R), @mkVec Rnum 6 (fun i => if i =? 0 then cos t else 0%R), @mkVec Rnum 6 (fun i => if i =? 0 then (- sin t)%R else 0%R)).
(** Gravity 1, torque limit 2; or bias forces 2 - 16 v, torque limit 1. *)
Definition c_grav (q v : vec Rnum) : vec Rnum := c_one 1.
Definition c_push (q v : vec Rnum) : vec Rnum := c_one (2 - 16 * vget v 0)%R.

Lemma c_robot nle : (forall q v, vlen (nle q v) = 1) -> robot_fine c_dif c_intg c_log3 1 (c_one 0) c_mass nle (@mkMat Rnum 1 1 (fun _ _ => 0%R)) (c_one 0).
Proof.
  intros H. split; [intros a b q i [E1 E2]; unfold c_dif; rewrite <- E1; destruct (Nat.ltb_spec i (vlen a)) as [L|L]; [rewrite (E2 i L)|]; reflexivity|]. split; [intros A B _ i _; reflexivity|]. split; [repeat split|]. split; [intros; split; reflexivity|]. split; [intros; apply H|]. reflexivity.
Qed.
Lemma c_conf tm : conf_fine 1 (c_one 0) (c_one 0) (1 / 1000) 1 1 1 (/ 2) c_mask (c_one tm) (c_one 1) c_ref.
Proof.
  repeat split; try lra. intros i Hi. cbn [c_mask vget vlen] in *. destruct (i <? 3); [right|left]; apply Reqb_true; reflexivity.
Qed.

(** The first robot: the program runs for ever within its limits. *)
Section Runs.
Variables (dbg : bool) (jn : nat -> nat) (jx : vec Rnum) (js : Solvers.junk Rnum) (jf : bool) (jst : Solvers.status) (loc : bool).
Local Notation turns nle tm ext := (after_turns c_dif c_intg c_log3 c_fk dbg 1 (c_one 0) c_mass nle (@mkMat Rnum 1 1 (fun _ _ => 0%R)) (c_one 0) ext jn jx js jf jst (c_one 0) (1 / 1000) 1 1 1 1 1 (/ 2) c_mask loc (c_one tm) (c_one 1) c_ref).
Theorem case_runs n : exists st, turns c_grav 2%R (exact_answer 1) n = Some st /\ (- 1 <= vget (a_v st) 0 <= 1)%R.
Proof.
  destruct (arm_never_stops c_dif c_intg c_log3 c_fk dbg 1 (c_one 0) c_mass c_grav (@mkMat Rnum 1 1 (fun _ _ => 0%R)) (c_one 0) (exact_answer 1) jn jx js jf jst (c_one 0) (1 / 1000) 1 1 1 1 1 (/ 2) c_mask loc (c_one 2) (c_one 1) c_ref
    (c_robot c_grav (fun _ _ => eq_refl)) (c_conf 2) (exact_answer_exact 1)) with (n := n) as (st & E & B).
  - intros i _. cbn. lra.
  - intros q v _ _ _ i _. cbn. lra.
  - exists st. split; [exact E|]. exact (B 0 (Nat.lt_0_succ 0)).
Qed.
(** The second one: in the state after the first turn no acceleration is admissible. A solver that
    says so with EIQUADPROG_FAST_INFEASIBLE does not stop the program: the second turn commands a
    torque of at least 10, the limit being 1. *)
Theorem case_hidden : exists st1 st2, turns c_push 1%R (hiding_answer 1) 1 = Some st1 /\ turns c_push 1%R (hiding_answer 1) 2 = Some st2 /\
  ~ (exists z, admissible 1 c_mass c_push (/ 2) (c_one 1) (c_one 1) (a_q st1) (a_v st1) z) /\ (10 <= vget (a_tau st2) 0)%R.
Proof.
  destruct (hiding_answer_finds 1) as [HF HH].
  assert (A0 : exists z, admissible 1 c_mass c_push (/ 2) (c_one 1) (c_one 1) (c_one 0) (vzero 1) z).
  { exists (fun _ => (-1)%R). intros i Hi. unfold torque, c_push. cbn. lra. }
  assert (HA := arm_hidden c_dif c_intg c_log3 c_fk dbg 1 (c_one 0) c_mass c_push (@mkMat Rnum 1 1 (fun _ _ => 0%R)) (c_one 0) (hiding_answer 1) jn jx js jf jst (c_one 0) (1 / 1000) 1 1 1 1 1 (/ 2) c_mask loc (c_one 1) (c_one 1) c_ref
    (c_robot c_push (fun _ _ => eq_refl)) (c_conf 1) (vzero 1) HF HH eq_refl A0).
  destruct (build_ok c_dif c_intg c_log3 dbg 1 (c_one 0) c_mass c_push (@mkMat Rnum 1 1 (fun _ _ => 0%R)) (c_one 0) jn jx js jf jst (c_one 0) (1 / 1000) 1 1 1 1 1 (/ 2) c_mask loc (c_one 1) (c_one 1) c_ref
    (c_robot c_push (fun _ _ => eq_refl)) (c_conf 1)) as (s0 & E0 & J0 & Q0 & V0 & _).
  assert (A1 := A0). rewrite <- Q0, <- V0 in A1.
  destruct (turn_good c_dif c_intg c_log3 c_fk dbg 1 (c_one 0) c_mass c_push (@mkMat Rnum 1 1 (fun _ _ => 0%R)) (c_one 0) (hiding_answer 1) js (c_one 0) (1 / 1000) 1 1 1 1 1 (/ 2) c_mask loc (c_one 1) (c_one 1) c_ref
    (c_robot c_push (fun _ _ => eq_refl)) (c_conf 1) 0 s0 HF J0 A1) as (s1 & T1 & _ & _ & [AD _] & _ & _ & _ & _ & EV & _).
  destruct (HA 1) as (s2 & E2 & H2). exists s1, s2.
  assert (E1 : turns c_push 1%R (hiding_answer 1) 1 = Some s1) by (cbn [after_turns]; rewrite E0; exact T1).
  assert (B := AD 0 (Nat.lt_0_succ 0)). rewrite V0 in B. unfold torque, c_push in B. cbn in B.
  assert (V1 : (vget (a_v s1) 0 <= - / 2)%R) by (rewrite EV, V0; cbn; lra).
  assert (NA : ~ (exists z, admissible 1 c_mass c_push (/ 2) (c_one 1) (c_one 1) (a_q s1) (a_v s1) z)).
  { intros [z Hz]. specialize (Hz 0 (Nat.lt_0_succ 0)). unfold torque, c_push in Hz. cbn in Hz. lra. }
  split; [exact E1|]. split; [exact E2|]. split; [exact NA|].
  destruct (H2 s1 E1 NA) as [_ TQ]. rewrite (TQ 0 (Nat.lt_0_succ 0)). unfold torque, c_push. cbn. lra.
Qed.
End Runs.
Theorem limits_refuted : ~ (forall dif intg log3 fk dbg nv neu mass nle (M0 : mat Rnum) H0 ext jn jx js jf jst q0 wp we wt wj kp kpe dt mask loc taumax vmax ref n st,
  robot_fine dif intg log3 nv neu mass nle M0 H0 -> conf_fine nv neu q0 wp we wt wj dt mask taumax vmax ref -> finds nv ext ->
  after_turns dif intg log3 fk dbg nv neu mass nle M0 H0 ext jn jx js jf jst q0 wp we wt wj kp kpe dt mask loc taumax vmax ref (S n) = Some st -> forall i, i < nv -> (vget (a_tau st) i <= vget taumax i)%R).
Proof.
  intros H. destruct (case_hidden false (fun _ => 0) (vzero 6) (fun _ _ _ => 0%R) false Solvers.St_unknown false) as (s1 & s2 & _ & E2 & _ & B).
  assert (X := H _ _ _ _ _ _ _ _ _ _ _ _ _ _ _ _ _ _ _ _ _ _ _ _ _ _ _ _ _ _ 1 s2 (c_robot c_push (fun _ _ => eq_refl)) (c_conf 1) (proj1 (hiding_answer_finds 1)) E2 0 (Nat.lt_0_succ 0)). cbn in X. lra.
Qed.
