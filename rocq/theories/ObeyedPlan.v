(** What a robot does when it is given the torques of getActuatorForces: the equations of motion
    and feet that the ground holds leave it no choice but the planned accelerations. *)
From Coq Require Import String List Arith Bool ZArith Reals Lia Lra.
From Verif Require Import Scalar Outcome Linalg Constraint Formulation FormSpec FormInv FormInvB FormOps FormSafe FormSafe2 FormDataSpec FormPhysSpec RSum FormPhys FormDecode FormMain FormSolver RobotModelR.
From Verif Require Solvers SolverSpec SolverSizes SolverMain.
Import ListNotations.
Open Scope list_scope.
Open Scope nat_scope.
Local Notation rsum := (@nsum Rnum).

(** * Specification *)
(** Motion matrix and right-hand side of a contact (contact.computeMotionTask). *)
Definition foot_mat (e : env Rnum) (c : clevel) : mat Rnum := fst (e_cmotion e (cl_obj c)).
Definition foot_vec (e : env Rnum) (c : clevel) : vec Rnum := snd (e_cmotion e (cl_obj c)).
(** [w c]: what the ground does to contact [c], in the coordinates of the rows of its motion
    matrix; its effect on the joints. *)
Definition ground_torque (s : fstate Rnum) (e : env Rnum) (w : clevel -> nat -> R) (i : nat) : R :=
  lsum (fun c => rsum (mrows (foot_mat e c)) (fun q => mget (foot_mat e c) q i * w c q)%R) (f_contacts s).
(** Equations of motion of the robot with joint torques [tau], ground actions [w] and
    accelerations [a]. *)
Definition obeys (s : fstate Rnum) (e : env Rnum) (tau : vec Rnum) (w : clevel -> nat -> R) (a : nat -> R) : Prop :=
  forall i, i < f_nv s ->
    (rsum (f_nv s) (fun j => mget (e_mass e) i j * a j) + vget (e_nle e) i - meas_torque s e i = full_torque s tau i + ground_torque s e w i)%R.
(** Accelerations [a] of the feet are the ones asked for by the contacts. *)
Definition feet_held (s : fstate Rnum) (e : env Rnum) (a : nat -> R) : Prop :=
  forall c, In c (f_contacts s) -> eq_holds (foot_mat e c) (foot_vec e c) a.
Definition all_hard (s : fstate Rnum) : Prop := forall c, In c (f_contacts s) -> hard_motion s c.
(** No action of the ground is without effect. *)
Definition independent (s : fstate Rnum) (e : env Rnum) : Prop := forall w, (forall i, i < f_nv s -> ground_torque s e w i = 0%R) ->
  forall c q, In c (f_contacts s) -> q < mrows (foot_mat e c) -> w c q = 0%R.
(** Action of the planned forces of a contact: generator matrix times forces. *)
Definition planned_action (s : fstate Rnum) (e : env Rnum) (y : nat -> R) (c : clevel) (q : nat) : R :=
  rsum (cl_nforce s c) (fun r => mget (e_gen e (cl_obj c)) q r * force_of s c y r)%R.
(** One period of the controller: any history of well-formed calls, computeProblemData with data
    [e], then a solver after any history of its own reports OPTIMAL with [y] (its external solver
    is exact), then getActuatorForces returns [tau]. *)
Definition controls (dbg : bool) (nv na : nat) (M0 : mat Rnum) (H0 : vec Rnum) (asc : nat -> string) (e : env Rnum) (s' : fstate Rnum) (y tau : vec Rnum) : Prop :=
  FormMain.robot_ok nv M0 H0 /\ exists s t cl0 cl1 b dbg' jk q ans x q' s1,
    reach (step dbg) (assoc_good dbg asc) (init nv na M0 H0) s /\ assoc_good dbg asc s (OCompute t e) /\ step dbg s (OCompute t e) = Ret s' OutUnit /\
    problem_of s' [cl0; cl1] /\ SolverSizes.solver_state b dbg' q /\ SolverSpec.fits b (nVar s') [cl0; cl1] /\ SolverSpec.handled b ans /\
    Solvers.solve b dbg' jk q [cl0; cl1] ans x = Ret q' (Solvers.St_optimal, y) /\ exact_answer b q' ans x /\
    vlen y = nVar s' /\ get s' GTau y = Ret s1 tau.

(** * Proofs *)
Section P.
Variables (dbg : bool) (nv na : nat) (M0 : mat Rnum) (H0 : vec Rnum) (asc : nat -> string) (e : env Rnum) (s' : fstate Rnum) (y tau : vec Rnum).
Hypothesis HC : controls dbg nv na M0 H0 asc e s' y tau.

Lemma control_facts : physical s' e (vget y) /\ env_ok s' e /\ f_nv s' = nv /\ f_nu s' = nv - na /\
  (forall c, In c (f_contacts s') -> mcols (foot_mat e c) = nv /\ mrows (foot_mat e c) = mrows (e_gen e (cl_obj c)) /\ vlen (foot_vec e c) = mrows (foot_mat e c)) /\
  (forall t, In t (f_motions s') -> exists kd r, task_data_ok kd r nv (e_task e (tl_task t))) /\
  forall q, q < nv - (nv - na) -> vget tau q = needed_torque s' e (vget y) ((nv - na) + q).
Proof.
  destruct HC as (R0 & s & t & cl0 & cl1 & b & dbg' & jk & q & ans & x & q' & s1 & Hr & Ho & Hs & E & S & F & Hh & Hv & Ex & L & G).
  destruct (after_facts dbg nv na M0 H0 asc s t e s' R0 Hr Ho Hs) as (A & B & Sz & D & En & Nd & N1 & N2).
  split; [apply (solve_physical dbg nv na M0 H0 asc s t e s' cl0 cl1 b dbg' jk q ans x q' y); assumption|].
  split; [exact En|]. split; [exact N1|]. split; [exact N2|].
  destruct En as (_ & _ & _ & E4 & _ & E6 & _). rewrite N1 in *. split; [|split].
  - intros c Hc. destruct (contact_obj s' A c Hc) as (o & Eo & _). specialize (E4 c o Hc Eo). unfold contact_data_ok in E4. unfold foot_mat, foot_vec.
    destruct (e_cmotion e (cl_obj c)) as [Am bm]. destruct (e_creg e (cl_obj c)) as [Cm dm]. cbn [fst snd]. destruct E4 as (X1 & X2 & X3 & X4 & _). repeat split; congruence.
  - intros k Hk. assert (Hk' : In k (tasks s')) by (unfold tasks; rewrite !in_app_iff; auto). destruct (task_announced s' B k Hk') as (kd & r & Ha). exists kd, r. exact (E6 k kd r Hk Ha).
  - destruct (gets_answer s' [] y GTau s' s1 tau Nd L eq_refl G) as [D1 A1]. cbn in A1. subst tau.
    destruct (decode_tau s' e A Sz D y s1 Nd L D1) as [_ T]. rewrite N1, N2 in T. exact T.
Qed.
(** The forces of the plan as actions of the ground. *)
Lemma planned_torque i : contact_torque s' e (vget y) i = ground_torque s' e (planned_action s' e (vget y)) i.
Proof.
  destruct control_facts as (_ & _ & _ & _ & Sz & _). unfold contact_torque, ground_torque. apply lsum_ext. intros c Hc. destruct (Sz c Hc) as (_ & Rw & _). rewrite Rw. unfold planned_action, jac.
  transitivity (rsum (cl_nforce s' c) (fun r => rsum (mrows (e_gen e (cl_obj c))) (fun q => mget (e_gen e (cl_obj c)) q r * mget (foot_mat e c) q i * force_of s' c (vget y) r)%R)).
  { apply rsum_ext. intros r Hr. rewrite rsum_scal_r. reflexivity. }
  rewrite rsum_swap. apply rsum_ext. intros q Hq. rewrite <- rsum_scal. apply rsum_ext. intros r Hr. ring.
Qed.
(** The plan is a motion of the robot. *)
Theorem plan_obeys : obeys s' e tau (planned_action s' e (vget y)) (vget y).
Proof.
  destruct control_facts as (Ph & _ & N1 & N2 & _ & _ & T). intros i Hi. rewrite <- planned_torque. unfold full_torque. destruct (Nat.ltb_spec i (f_nu s')) as [L|L].
  - assert (B := ph_base _ _ _ Ph i L). unfold needed_torque in B. lra.
  - rewrite T by lia. replace ((nv - na) + (i - f_nu s')) with i by lia. unfold needed_torque. lra.
Qed.
Lemma ground_minus w w' i : ground_torque s' e (fun c q => w c q - w' c q)%R i = (ground_torque s' e w i - ground_torque s' e w' i)%R.
Proof.
  unfold ground_torque. induction (f_contacts s') as [|c l IH]; [unfold lsum; cbn; lra|]. rewrite !lsum_cons, IH.
  rewrite (rsum_ext _ (fun q => mget (foot_mat e c) q i * (w c q - w' c q))%R (fun q => mget (foot_mat e c) q i * w c q - mget (foot_mat e c) q i * w' c q)%R) by (intros; ring).
  rewrite rsum_minus. ring.
Qed.
(** Power of the ground on a motion that the feet do not follow. *)
Lemma ground_power w z : (forall c q, In c (f_contacts s') -> q < mrows (foot_mat e c) -> rsum nv (fun j => mget (foot_mat e c) q j * z j)%R = 0%R) ->
  rsum nv (fun i => z i * ground_torque s' e w i)%R = 0%R.
Proof.
  intros H. unfold ground_torque. revert H. induction (f_contacts s') as [|c l IH]; intros H.
  { apply rsum_zero. intros i Hi. unfold lsum. cbn. lra. }
  transitivity (rsum nv (fun i => rsum (mrows (foot_mat e c)) (fun q => w c q * (mget (foot_mat e c) q i * z i))) + rsum nv (fun i => z i * lsum (fun c => rsum (mrows (foot_mat e c)) (fun q => mget (foot_mat e c) q i * w c q)) l))%R.
  { rewrite <- rsum_plus. apply rsum_ext. intros i Hi. rewrite lsum_cons, Rmult_plus_distr_l. f_equal. rewrite <- rsum_scal. apply rsum_ext. intros q Hq. ring. }
  rewrite IH by (intros c' q Hc Hq; apply H; [right; exact Hc|exact Hq]). rewrite rsum_swap, rsum_zero; [lra|].
  intros q Hq. rewrite rsum_scal, (H c q (or_introl eq_refl) Hq). lra.
Qed.
(** Motion of the robot. *)
Variables (w : clevel -> nat -> R) (a : nat -> R).
Hypothesis PD : posdef nv (mget (e_mass e)).
Hypothesis HO : obeys s' e tau w a.
Hypothesis HA : all_hard s'.
Hypothesis HF : feet_held s' e a.
Theorem robot_follows j : j < nv -> a j = vget y j.
Proof.
  intros Hj. destruct control_facts as (Ph & _ & N1 & _ & Sz & _). assert (PO := plan_obeys).
  destruct (Req_dec (a j - vget y j) 0) as [Z|NZ]; [lra|]. exfalso.
  assert (Q := PD (fun i => a i - vget y i)%R (ex_intro _ j (conj Hj NZ))). unfold qform in Q.
  rewrite (rsum_ext nv _ (fun i => (a i - vget y i) * ground_torque s' e (fun c q => w c q - planned_action s' e (vget y) c q) i)%R) in Q.
  - rewrite ground_power in Q; [lra|]. intros c q Hc Hq. destruct (Sz c Hc) as (C1 & _ & C3).
    assert (H1 := HF c Hc q). assert (H2 := ph_motion _ _ _ Ph c Hc (HA c Hc) q). fold (foot_mat e c) in H2. fold (foot_vec e c) in H2. rewrite C1 in H1, H2.
    rewrite (rsum_ext nv _ (fun j => mget (foot_mat e c) q j * a j - mget (foot_mat e c) q j * vget y j)%R) by (intros; ring).
    rewrite rsum_minus, H1, H2 by lia. lra.
  - intros i Hi. f_equal. rewrite ground_minus. rewrite <- N1 in Hi. assert (X := HO i Hi). assert (Y := PO i Hi). rewrite N1 in X, Y.
    rewrite (rsum_ext nv _ (fun j => mget (e_mass e) i j * a j - mget (e_mass e) i j * vget y j)%R) by (intros; ring). rewrite rsum_minus. lra.
Qed.
Theorem ground_gives : independent s' e -> forall c q, In c (f_contacts s') -> q < mrows (foot_mat e c) -> w c q = planned_action s' e (vget y) c q.
Proof.
  intros I c q Hc Hq. destruct control_facts as (_ & _ & N1 & _). assert (PO := plan_obeys).
  assert (Z : (w c q - planned_action s' e (vget y) c q = 0)%R); [|lra].
  apply (I (fun c q => w c q - planned_action s' e (vget y) c q)%R); [|exact Hc|exact Hq]. intros i Hi. rewrite ground_minus. assert (X := HO i Hi). assert (Y := PO i Hi).
  rewrite (rsum_ext (f_nv s') _ (fun j => mget (e_mass e) i j * vget y j)%R) in X; [lra|]. intros j Hj. rewrite robot_follows by lia. reflexivity.
Qed.
Theorem tasks_hold t : In t (f_motions s') -> tl_prio t = 0 -> sat (e_task e (tl_task t)) a.
Proof.
  intros Ht Hp. destruct control_facts as (Ph & _ & N1 & _ & _ & TD & _). destruct (TD t Ht) as (kd & r & _ & Cr & Cn).
  apply (sat_ext _ nv a (vget y) r Cr Cn robot_follows). apply (ph_mtask _ _ _ Ph t Ht Hp).
Qed.
End P.

(** Controllers that meet the contract exist as soon as some consistent motion exists. *)
Theorem control_possible dbg nv na (M0 : mat Rnum) H0 asc s t e s' cl0 cl1 : FormMain.robot_ok nv M0 H0 ->
  reach (step dbg) (assoc_good dbg asc) (init nv na M0 H0) s -> assoc_good dbg asc s (OCompute t e) -> step dbg s (OCompute t e) = Ret s' OutUnit ->
  problem_of s' [cl0; cl1] -> (forall w c, In (w, c) cl1 -> c_kind c = CEq /\ (0 <= (w : R))%R) -> (exists z, physical s' e z) ->
  exists y tau, controls dbg nv na M0 H0 asc e s' y tau.
Proof.
  intros R0 Hr Ho Hs E W Ph.
  set (jk := (fun _ _ _ => n0) : Solvers.junk Rnum).
  set (q0 := @Solvers.solver_new Rnum Solvers.Fast jk false Solvers.St_optimal).
  assert (S0 : SolverSizes.solver_state Solvers.Fast dbg q0) by (exists jk, false, Solvers.St_optimal; constructor).
  destruct (solution_exists dbg nv na M0 H0 asc s t e s' cl0 cl1 Solvers.Fast dbg jk q0 Solvers.F_optimal R0 Hr Ho Hs E S0 I W Ph) as (y & q' & L & Hv & Ex); try (cbn; congruence).
  { split; discriminate. }
  destruct (after_facts dbg nv na M0 H0 asc s t e s' R0 Hr Ho Hs) as (A & B & Sz & D & En & Nd & N1 & N2).
  destruct (decode_safe s' y A Sz ltac:(unfold nVar in L; lia)) as (s1 & Ed & _).
  exists y, (f_tau s1). split; [exact R0|]. exists s, t, cl0, cl1, Solvers.Fast, dbg, jk, q0, Solvers.F_optimal, y, q', s1.
  repeat (split; [first [assumption | exact I | cbn; congruence]|]). unfold get. rewrite Ed. reflexivity.
Qed.
