(** Property C115: the sliders and pushes of the balance exercise with a GUI.  Only statements;
    the proofs are in ComSlidersP.v. *)
From Coq Require Import String List Arith Bool Reals Lia Lra.
From Verif Require Import Scalar Outcome Linalg Constraint FormPhysSpec RSum MaskReal FrameTasks FrameTasksR FrameRefute ClosedLoopR ComProgram ComProgramP ComSliders ComSlidersP Prop_ComProgram.
Import ListNotations.
Open Scope list_scope.
Open Scope nat_scope.

(** Whatever is moved and pushed, and whatever the robot measures and the solver answers, no call
    fails, and each period asks for the acceleration -kp (com - ref) - 2 sqrt kp com_vel, where ref
    is com_0 plus a hundredth of the last slider values (the initial reference if no slider was
    moved).  Pushes leave no trace in the task. *)
Theorem C115_runs : forall nv jk kp com_0 com_ref (l : list period), exists os,
  gui_program com_0 nv jk kp com_ref l = Some os /\ List.length os = List.length l /\
  forall i e o r, nth_error l i = Some e -> nth_error os i = Some o -> in_force com_0 com_ref l i r ->
    (forall k, k < 3 -> snd o k = (- kp * (g_p (e_d e) k - r k) - 2 * sqrt kp * g_v (e_d e) k)%R) /\
    (sat (fst o) (vget (e_dv e)) <-> forall k, k < 3 ->
      accel nv (g_J (e_d e)) (g_a (e_d e)) (vget (e_dv e)) k = (- kp * (g_p (e_d e) k - r k) - 2 * sqrt kp * g_v (e_d e) k)%R).
Proof. intros nv jk kp com_0 com_ref l. exact (gui_runs nv jk kp com_0 com_ref l). Qed.
Print Assumptions C115_runs.
(** There is always exactly one reference in force. *)
Theorem C115_in_force : forall com_0 com_ref l i, exists r, in_force com_0 com_ref l i r /\ forall r', in_force com_0 com_ref l i r' -> r' = r.
Proof.
  intros com_0 com_ref l i. exists (ref_at com_0 com_ref l i). split; [apply ref_at_force|]. intros r' H. symmetry. apply ref_in_force. exact H.
Qed.
Print Assumptions C115_in_force.
(** From any period m on, after a slider was moved or the robot was pushed: while the sliders rest,
    the task is met and the acceleration is constant between samples (no push), the distance to the
    reference fades by the factor 1 - sqrt kp dt / 2 per period. *)
Theorem C115_settles : forall nv jk kp com_0 dt com_ref l os m n r k (ev : nat -> period),
  (0 < kp)%R -> (0 < dt)%R -> (sqrt kp * dt <= 1 / 2)%R -> k < 3 ->
  gui_program com_0 nv jk kp com_ref l = Some os -> in_force com_0 com_ref l m r ->
  (forall i, m <= i <= m + n -> nth_error l i = Some (ev i)) -> (forall i, m < i <= m + n -> e_slide (ev i) = None) ->
  (forall i o, m <= i < m + n -> nth_error os i = Some o -> sat (fst o) (vget (e_dv (ev i)))) ->
  (let a i := accel nv (g_J (e_d (ev i))) (g_a (e_d (ev i))) (vget (e_dv (ev i))) k in forall i, m <= i < m + n ->
    g_p (e_d (ev (S i))) k = (g_p (e_d (ev i)) k + dt * (g_v (e_d (ev i)) k + 1 / 2 * dt * a i))%R /\
    g_v (e_d (ev (S i))) k = (g_v (e_d (ev i)) k + dt * a i)%R) ->
  let e0 := (g_p (e_d (ev m)) k - r k)%R in let v0 := g_v (e_d (ev m)) k in
  forall i, i <= n -> (Rabs (g_p (e_d (ev (m + i)%nat)) k - r k) <= (1 - sqrt kp * dt / 2) ^ i * Rmax (Rabs e0) (2 * Rabs (e0 + v0 / sqrt kp)))%R.
Proof. intros nv jk kp com_0 dt com_ref l os m n r k ev. exact (gui_settles nv jk kp com_0 dt com_ref l os m n r k ev). Qed.
Print Assumptions C115_settles.

(** A slider is moved to 5 (5 cm along y) and the robot is pushed, then it obeys for n periods from
    10 cm along y: all hypotheses of C115_settles hold with m = 1. *)
Definition zero3 (_ : nat) : R := 0%R.
Definition case_ev (i : nat) : period := match i with
  | O => mkPeriod (Some (only_y 5)) (@mkCd Rnum zero3 zero3 zero3 id6) (@vzero Rnum 6) (Some (@mkCd Rnum zero3 zero3 zero3 id6))
  | S i => mkPeriod None (obey_d 10 (2 / 1000) (only_y (1 / 20)) zero3 zero3 (only_y (1 / 10)) i) (obey_dv 10 (2 / 1000) (only_y (1 / 20)) zero3 zero3 (only_y (1 / 10)) i) None
  end.
Example C115_case : forall jk n, let l := map case_ev (seq 0 (2 + n)) in exists os r,
  gui_program zero3 6 jk 10 zero3 l = Some os /\ in_force zero3 zero3 l 1 r /\ r 1 = (1 / 20)%R /\
  (forall i o, 1 <= i < 1 + n -> nth_error os i = Some o -> sat (fst o) (vget (e_dv (case_ev i)))) /\
  forall i, i <= n -> (Rabs (g_p (e_d (case_ev (1 + i)%nat)) 1%nat - 1 / 20) <= (1 - sqrt 10 * (2 / 1000) / 2) ^ i * Rmax (Rabs (1 / 10 - 1 / 20)) (2 * Rabs (1 / 10 - 1 / 20 + 0 / sqrt 10)))%R.
Proof.
  intros jk n l. destruct (C115_runs 6 jk 10 zero3 zero3 l) as (os & E & Ln & Q). set (r := fun k => (zero3 k + 1 / 100 * only_y 5 k)%R). exists os, r.
  assert (EV : forall i, i <= 1 + n -> nth_error l i = Some (case_ev i)).
  { intros i Hi. unfold l. rewrite nth_error_map. replace (nth_error (seq 0 (2 + n)) i) with (Some i); [reflexivity|].
    symmetry. rewrite (nth_error_nth' _ 0) by (rewrite seq_length; lia). rewrite seq_nth by lia. reflexivity. }
  assert (NS : forall i, 0 < i -> e_slide (case_ev i) = None) by (intros [|i] Hi; [lia|reflexivity]).
  assert (F : forall i, i <= 1 + n -> in_force zero3 zero3 l i r).
  { intros i Hi. apply moved with 0 (case_ev 0); [lia|apply EV; lia|reflexivity|]. intros j e Hj X. rewrite (EV j ltac:(lia)) in X. injection X as <-. apply NS. lia. }
  assert (R1 : forall k, r k = only_y (1 / 20) k) by (intros [|[|k]]; unfold r, zero3, only_y; cbn; lra).
  assert (AS : forall i k, k < 3 -> asked_com 10 (2 / 1000) (only_y (1 / 20)) zero3 zero3 (obey_d 10 (2 / 1000) (only_y (1 / 20)) zero3 zero3 (only_y (1 / 10))) i k = asks 10 r (case_ev (S i)) k).
  { intros i k Hk. unfold asked_com, asks, curve, curve1, curve2. rewrite R1. cbn [case_ev e_d].
    generalize (g_p (obey_d 10 (2 / 1000) (only_y (1 / 20)) zero3 zero3 (only_y (1 / 10)) i) k), (g_v (obey_d 10 (2 / 1000) (only_y (1 / 20)) zero3 zero3 (only_y (1 / 10)) i) k). unfold zero3. intros p v. change (car Rnum) with R in p, v. ring. }
  assert (MV : forall i k, k < 3 -> moves 6 (case_ev (S i)) k = asks 10 r (case_ev (S i)) k) by (intros i k Hk; rewrite <- AS by exact Hk; exact (obey_acc 10 (2 / 1000) _ _ _ _ i k Hk)).
  assert (MET : forall i o, 1 <= i < 1 + n -> nth_error os i = Some o -> sat (fst o) (vget (e_dv (case_ev i)))).
  { intros i o Hi X. destruct (Q i _ o r (EV i ltac:(lia)) X (F i ltac:(lia))) as [_ M]. apply M. destruct i as [|i]; [lia|]. exact (MV i). }
  split; [exact E|]. split; [apply F; lia|]. split; [unfold r, zero3, only_y; cbn; lra|]. split; [exact MET|].
  intros i Hi. assert (X := C115_settles 6 jk 10 zero3 (2 / 1000) zero3 l os 1 n r 1 case_ev ltac:(lra) ltac:(lra) sqrt10 ltac:(lia) E (F 1 ltac:(lia))
    (fun i H => EV i ltac:(lia)) (fun i H => NS i ltac:(lia)) MET). cbv zeta in X.
  specialize (X ltac:(intros [|j] Hj; [lia|]; exact (obey_integrated 10 (2 / 1000) (only_y (1 / 20)) zero3 zero3 (only_y (1 / 10)) (S (S j)) 1 ltac:(lia) j ltac:(lia))) i Hi).
  rewrite R1 in X. exact X.
Qed.
Print Assumptions C115_case.
