(** Closed loops of the capture point task that exist. *)
From Coq Require Import String List Arith Bool ZArith Reals Lia Lra Psatz.
From Verif Require Import Scalar Outcome Linalg Constraint FormPhysSpec RSum FrameTasks ForceTasks ForceTasksR CaptureLoop.
Import ListNotations.
Open Scope nat_scope.

(** Support limits -2 and 2 with margins 1: the limits of the capture point are -1 and 1. *)
Lemma cap_config dt g : exists s, cap_made "cap" 3 dt g s /\ forall i, i < 2 -> (v_min s i + v_mar s i = -1 /\ v_max s i - v_mar s i = 1)%R.
Proof.
  destruct (run (@cap_step Rnum sqrt) (@cap_new Rnum "cap" 3 dt g (fun _ => 0%R)) [@VLimX Rnum (-2)%R 2%R; @VLimY Rnum (-2)%R 2%R; @VMargin Rnum 1%R 1%R]) as [s|] eqn:E;
    cbn [run cap_step] in E; assert (A : @nleb Rnum (-2)%R 2%R = true) by (apply Rleb_true; lra); rewrite ?A in E; cbn [after] in E; cbn [obind] in E; rewrite ?A in E; [|discriminate].
  exists s. split.
  - assert (E2 : run (@cap_step Rnum sqrt) (@cap_new Rnum "cap" 3 dt g (fun _ => 0%R)) [@VLimX Rnum (-2)%R 2%R; @VLimY Rnum (-2)%R 2%R; @VMargin Rnum 1%R 1%R] = Some s).
    { cbn [run cap_step]. rewrite ?A. cbn [after]. cbn [obind]. rewrite ?A. exact E. }
    exists (fun _ => 0%R). exact (run_reach _ _ _ _ E2).
  - cbn in E. injection E as <-. intros i Hi. destruct i as [|[|i]]; [| |lia]; cbn; lra.
Qed.
(** Data with unit Jacobian: the accelerations are those of the centre of mass. *)
Definition com_data (p v z : R) : cdata Rnum := @mkCd Rnum (fun i => if i =? 2 then z else p) (fun i => if i =? 2 then 0%R else v) (fun _ => 0%R) (fun i j => if i =? j then 1%R else 0%R).
Lemma com_data_accel p v z (a : R) i : i < 2 -> com_accel 3 (com_data p v z) (fun _ => a) i = a.
Proof.
  intros Hi. unfold com_accel. cbn [com_data g_J g_a]. rewrite (rsum_single 3 i).
  - rewrite Nat.eqb_refl. change (@n1 Rnum) with 1%R. lra.
  - lia.
  - intros c Hc Hne. replace (i =? c) with false by (symmetry; apply Nat.eqb_neq; lia). change (@n0 Rnum) with 0%R. lra.
Qed.
Lemma capture_loop dt g (p v a z : nat -> R) : (0 < g)%R -> (0 < dt)%R ->
  (forall k, 0 < z k /\ p (S k) = p k + v k * dt + a k * (dt * dt) / 2 /\ v (S k) = v k + a k * dt /\ -1 <= p (S k) + v (S k) / frequency g (z k) <= 1)%R ->
  capture_runs "cap" 3 dt g (fun _ => (-1)%R) (fun _ => 1%R) z (fun k => com_data (p k) (v k) (z k)) (fun k _ => a k).
Proof.
  intros Hg Hd H k. destruct (H k) as (Z & P & V & B). split; [|split; [reflexivity|split; [exact Z|]]].
  - destruct (cap_config dt g) as (s & M & L). destruct (cap_meaning "cap" 3 dt g s (com_data (p k) (v k) (z k)) M Hg Hd Z) as (s' & E & X).
    exists s, s'. split; [exact M|]. split; [exact L|]. split; [exact E|]. apply X. intros i Hi. rewrite (proj1 (L i Hi)), (proj2 (L i Hi)), com_data_accel by exact Hi.
    unfold end_capture. cbn [com_data g_p g_v]. replace (i =? 2) with false by (symmetry; apply Nat.eqb_neq; lia). cbn [Nat.eqb]. rewrite <- P, <- V. exact B.
  - intros i Hi a0. unfold a0. rewrite com_data_accel by exact Hi. cbn [com_data g_p g_v]. replace (i =? 2) with false by (symmetry; apply Nat.eqb_neq; lia). split; assumption.
Qed.
Lemma freq1 : frequency 1 1 = 1%R.
Proof. unfold frequency. replace (1 / 1)%R with 1%R by field. apply sqrt_1. Qed.
Lemma freq4 : frequency 1 4 = (1 / 2)%R.
Proof. unfold frequency. replace (1 / 4)%R with (1 / 2 * (1 / 2))%R by field. rewrite sqrt_square; lra. Qed.
(** Capture point constantly at [e], centre of mass [h] away at the start; frequency 1. *)
Definition approach (e h q dt al : R) : (nat -> cdata Rnum) * (nat -> nat -> R) :=
  (fun k => com_data (e + h * q ^ k) (- h * q ^ k) 1, fun k _ => al * (h * q ^ k))%R.
Lemma approach_runs e h q dt al : (0 < dt -> 1 - dt + al * (dt * dt) / 2 = q -> -1 + al * dt = - q -> -1 <= e <= 1 ->
  capture_runs "cap" 3 dt 1 (fun _ => (-1)%R) (fun _ => 1%R) (fun _ => 1%R) (fst (approach e h q dt al)) (snd (approach e h q dt al)))%R.
Proof.
  intros Hd Q1 Q2 E. unfold approach. cbn [fst snd].
  apply (capture_loop dt 1 (fun k => e + h * q ^ k)%R (fun k => - h * q ^ k)%R (fun k => al * (h * q ^ k))%R (fun _ => 1%R)); [lra|exact Hd|].
  intros k. cbn [pow]. rewrite freq1. set (x := (q ^ k)%R). clearbody x. split; [lra|]. split; [|split].
  - transitivity (e + h * x * (1 - dt + al * (dt * dt) / 2))%R; [rewrite Q1; ring|field].
  - transitivity (h * x * (-1 + al * dt))%R; [rewrite Q2; ring|ring].
  - replace (e + h * (q * x) + - h * (q * x) / 1)%R with e by field. exact E.
Qed.
(** From inside, and from outside. *)
Theorem inside_loop : let d := fst (approach (1 / 2) (- (1 / 2)) (1 / 3) 1 (2 / 3)) in let y := snd (approach (1 / 2) (- (1 / 2)) (1 / 3) 1 (2 / 3)) in
  capture_runs "cap" 3 1 1 (fun _ => (-1)%R) (fun _ => 1%R) (fun _ => 1%R) d y /\ (frequency 1 1 * 1 <= 2)%R /\
  forall i, i < 2 -> inside (-1) 1 (g_p (d 0) i) /\ inside (-1) 1 (capture 1 (d 0) i) /\ g_v (d 0) i = (1 / 2)%R.
Proof.
  cbv zeta. split; [apply approach_runs; lra|]. split; [rewrite freq1; lra|].
  intros i Hi. unfold capture. cbn [approach fst com_data g_p g_v]. replace (i =? 2) with false by (symmetry; apply Nat.eqb_neq; lia). cbn [Nat.eqb]. rewrite freq1. unfold inside. cbn [pow]. lra.
Qed.
Theorem outside_loop : let d := fst (approach 1 2 (1 / 3) 1 (2 / 3)) in let y := snd (approach 1 2 (1 / 3) 1 (2 / 3)) in
  capture_runs "cap" 3 1 1 (fun _ => (-1)%R) (fun _ => 1%R) (fun _ => 1%R) d y /\ (frequency 1 1 * 1 <= 2)%R /\
  forall i, i < 2 -> off (-1) 1 (g_p (d 1) i) = (2 / 3)%R.
Proof.
  cbv zeta. split; [apply approach_runs; lra|]. split; [rewrite freq1; lra|].
  intros i Hi. cbn [approach fst com_data g_p]. replace (i =? 2) with false by (symmetry; apply Nat.eqb_neq; lia). unfold off. cbn [pow].
  rewrite (Rmax_right (-1 - _)) by lra. rewrite Rmax_right by lra. lra.
Qed.
(** A period longer than 2/w: out of the limits although the start is inside. *)
Theorem long_period_leaves : exists (d : nat -> cdata Rnum) (y : nat -> nat -> R),
  capture_runs "cap" 3 4 1 (fun _ => (-1)%R) (fun _ => 1%R) (fun _ => 1%R) d y /\
  forall i, i < 2 -> inside (-1) 1 (g_p (d 0) i) /\ inside (-1) 1 (capture 1 (d 0) i) /\ (g_p (d 1%nat) i < -1)%R.
Proof.
  exists (fst (approach (-1) 2 (- (1 / 3)) 4 (1 / 3))), (snd (approach (-1) 2 (- (1 / 3)) 4 (1 / 3))). split; [apply approach_runs; lra|].
  intros i Hi. unfold capture. cbn [approach fst com_data g_p g_v]. replace (i =? 2) with false by (symmetry; apply Nat.eqb_neq; lia). cbn [Nat.eqb]. rewrite freq1. unfold inside. cbn [pow]. lra.
Qed.
(** A rising centre of mass: the capture point leaves the limits. *)
Theorem rising_leaves : exists (z : nat -> R) (d : nat -> cdata Rnum) (y : nat -> nat -> R),
  capture_runs "cap" 3 1 1 (fun _ => (-1)%R) (fun _ => 1%R) z d y /\
  forall i, i < 2 -> inside (-1) 1 (g_p (d 0) i) /\ inside (-1) 1 (capture 1 (d 0) i) /\ (1 < capture 1 (d 1%nat) i)%R.
Proof.
  set (p := fun k : nat => match k with 0 => 0 | 1 => 2 / 3 | _ => 5 / 6 end%R). set (v := fun k : nat => match k with 0 => 1 | 1 => 1 / 3 | _ => 0 end%R).
  set (a := fun k : nat => match k with 0 => - (2 / 3) | 1 => - (1 / 3) | _ => 0 end%R). set (z := fun k : nat => match k with 0 => 1 | _ => 4 end%R).
  exists z, (fun k => com_data (p k) (v k) (z k)), (fun k _ => a k). split.
  - apply capture_loop; [lra|lra|]. intros [|[|k]]; cbn [p v a z]; rewrite ?freq1, ?freq4; lra.
  - intros i Hi. unfold capture. cbn [com_data g_p g_v]. replace (i =? 2) with false by (symmetry; apply Nat.eqb_neq; lia). cbn [Nat.eqb p v z]. rewrite freq1, freq4. unfold inside. lra.
Qed.
