(** Two demos: the gripper with a closed kinematic chain
    (demo/demo_tsid_talos_gripper_closed_kinematic_chain.py, "gr" below) and the quadruped that
    moves its centre of mass (demo/demo_quadruped.py, "qu" below).

    Simplifications: what the robot, tasks and contacts return in a period is given by [env]; the
    reference signals and the integration only change that data, so the theorems quantify over it;
    the answer of the solver is an argument of the period; viewers, printing of numbers, sleeping
    and plots are dropped.  In qu the turns that print are arbitrary (qu:185 prints when i is a
    multiple of 500). *)
From Coq Require Import String List Arith Bool ZArith Lia Reals Lra.
From Verif Require Import Scalar Outcome Linalg Constraint Formulation FormSpec FormDataSpec FormPhysSpec RSum FormMain FormDecode Walking Sheets SoftPlan SoftOrderR.
From Verif Require Import Contacts ContactSpec ContactProofs ContactReal JointTasks JointTasksP JointTasksR MaskReal Masks.
From Verif Require RobotModelR.
Import ListNotations.
Open Scope string_scope.
Open Scope list_scope.
Open Scope nat_scope.
Local Notation OCompute := Formulation.OCompute.
Local Notation rvec n f := (@mkVec Rnum n f).

(** * The programs *)
(** One period: time, data of the robot and tasks, answer of the solver. *)
Record period := mkPeriod { p_t : R; p_e : env Rnum; p_y : vec Rnum }.

(** gr:92-99: ContactTwoFramePositions, bounds -1000 and 1000. *)
Definition closure_name : string := "contact-two-frame-positions-fingertip-bottom-axis".
Definition closure : cobj Rnum := @mkCobj Rnum closure_name 3 3 3 3 false (-1000)%R 1000%R (fun _ => 0%R).
(** gr:65-120. *)
Definition gripper_setup (nv : nat) (e0 : env Rnum) : list (fop Rnum) :=
  [@OCompute Rnum 0%R e0; @OAddMotion Rnum 0 "task-fingertip-position" CEq 6 1%R 1 0%R; @OAddMotion Rnum 1 "task-posture" CEq nv (/ 1000)%R 1 0%R;
   ONewContact closure; @OAddContact Rnum 0 (/ 100000)%R 1%R 1; @OAddAct Rnum 2 "task-actuation-bounds" CIneq nv 1%R 0 0%R].
(** gr:166, 175-176. *)
Definition gripper_turn (p : period) : list (fop Rnum) := [@OCompute Rnum (p_t p) (p_e p); @OGet Rnum GTau (p_y p); @OGet Rnum GAcc (p_y p)].
Definition gripper_calls (nv : nat) (e0 : env Rnum) (l : list period) : list (fop Rnum) := gripper_setup nv e0 ++ flat_map gripper_turn l.
(** gr:112-119: effort limits [lim], the first two replaced by 0; setBounds on a new task. *)
Definition tau_max (nv : nat) (lim : nat -> R) : vec Rnum := rvec nv (fun q => if q <? 2 then 0%R else lim q).
Definition tau_min (nv : nat) (lim : nat -> R) : vec Rnum := rvec nv (fun q => - vget (tau_max nv lim) q)%R.
Definition bounds_task (jk : nat -> nat) (nv : nat) (lim : nat -> R) : option (actb Rnum) :=
  do u <- @actb_new Rnum Rtrunc jk "task-actuation-bounds" nv;
  match @actb_step Rnum Rtrunc u (UBounds (tau_min nv lim) (tau_max nv lim)) with Ret u' _ => Some u' | _ => None end.

(** qu:25-31, 98-106. *)
Definition paw_names : list string := ["BL_contact"; "BR_contact"; "FL_contact"; "FR_contact"].
Definition paw (n : string) : cobj Rnum := @mkCobj Rnum n 3 3 5 3 true 1%R 100%R (dot3 (@v3 Rnum 0%R 0%R 1%R)).
Definition paw_calls (i : nat) (n : string) : list (fop Rnum) := [ONewContact (paw n); @OAddContact Rnum i (/ 100000)%R 1%R 1].
(** qu:90, 98-116. *)
Definition quadruped_setup (nv : nat) (e0 : env Rnum) : list (fop Rnum) :=
  [@OCompute Rnum 0%R e0] ++ paw_calls 0 "BL_contact" ++ paw_calls 1 "BR_contact" ++ paw_calls 2 "FL_contact" ++ paw_calls 3 "FR_contact" ++
  [@OAddMotion Rnum 0 "task-com" CEq 3 1%R 1 0%R; @OAddMotion Rnum 1 "task-posture" CEq (nv - 6) (/ 1000)%R 1 0%R].
(** qu:165, 174-175, and when the turn prints 188-190: checkContact calls getContactForces, then
    getContactForce calls it again (bindings, formulation.hpp:271-283). *)
Definition quadruped_turn (prints : bool) (p : period) : list (fop Rnum) :=
  [@OCompute Rnum (p_t p) (p_e p); @OGet Rnum GTau (p_y p); @OGet Rnum GAcc (p_y p)] ++
  (if prints then flat_map (fun n => [@OGet Rnum (GForceOf n) (p_y p); @OGet Rnum (GForceOf n) (p_y p)]) paw_names else []).
Definition quadruped_calls (nv : nat) (e0 : env Rnum) (l : list (bool * period)) : list (fop Rnum) :=
  quadruped_setup nv e0 ++ flat_map (fun bp => quadruped_turn (fst bp) (snd bp)) l.

(** * What the robot, tasks and contacts return *)
Definition parts (c : constr Rnum) : mat Rnum * vec Rnum * vec Rnum := (c_mat c, c_lb c, c_ub c).
(** Sizes of the data of the robot; no force task exists, so none names a contact. *)
Definition robot_data (nv : nat) (e : env Rnum) : Prop := mrows (e_mass e) = nv /\ mcols (e_mass e) = nv /\ vlen (e_nle e) = nv /\ forall id, e_assoc e id = "".
(** Sizes of the data of a contact with 3 forces, and its force constraint [c]. *)
Definition contact_of (nv o : nat) (c : R -> R -> constr Rnum) (e : env Rnum) : Prop :=
  mrows (fst (e_cmotion e o)) = 3 /\ mcols (fst (e_cmotion e o)) = nv /\ vlen (snd (e_cmotion e o)) = 3 /\ mrows (e_gen e o) = 3 /\ mcols (e_gen e o) = 3 /\
  mrows (fst (e_creg e o)) = 3 /\ mcols (fst (e_creg e o)) = 3 /\ vlen (snd (e_creg e o)) = 3 /\ forall a b, e_cforce e o a b = parts (c a b).
Definition gripper_data (jk : nat -> nat) (nv : nat) (lim : nat -> R) (e : env Rnum) : Prop :=
  robot_data nv e /\ contact_of nv 0 (force_ineq rsq K2 closure_name (vzero 0) 0%R) e /\
  task_data_ok CEq 6 nv (e_task e 0) /\ task_data_ok CEq nv nv (e_task e 1) /\ exists u, bounds_task jk nv lim = Some u /\ e_task e 2 = u_c u.
(** qu:29-31: the normal is the vertical. *)
Definition quadruped_data (nv : nat) (e : env Rnum) : Prop :=
  robot_data nv e /\ (forall o n, nth_error paw_names o = Some n -> contact_of nv o (force_ineq rsq KP n (@v3 Rnum 0%R 0%R 1%R) (3 / 10)%R) e) /\
  task_data_ok CEq 3 nv (e_task e 0) /\ task_data_ok CEq (nv - 6) nv (e_task e 1).

(** * Proofs *)
Lemma box_sat name n (mu a b : R) f : sat (force_ineq rsq K2 name n mu a b) f <-> forall j, j < 3 -> (a <= f j <= b)%R.
Proof.
  unfold sat, lhs. cbn [force_ineq c_kind c_mat c_lb c_ub vlen vget mcols mident mget].
  assert (E : forall i, i < 3 -> @nsum Rnum 3 (fun j => mget (@mident Rnum 3 3) i j * f j)%R = f i).
  { intros i Hi. rewrite !rsum_S, rsum_0. destruct i as [|[|[|i]]]; [| | |lia]; unfold mident; cbn [mget Nat.eqb]; cbv [Rnum n0 n1]; match goal with |- @eq _ ?u ?v => change (@eq R u v) end; ring. }
  assert (E1 : forall a : R, (@nmul Rnum a n1 = a)%R) by (intros x; exact (Rmult_1_r x)).
  split; intros H j Hj; specialize (H j Hj); rewrite ?E1 in *.
  - rewrite <- (E j Hj). exact H.
  - rewrite <- (E j Hj) in H. exact H.
Qed.
(** The pyramid of a contact on level ground. *)
Definition level_pyramid (mu a b : R) (f : nat -> R) : Prop := (Rabs (f 0%nat) <= mu * f 2%nat)%R /\ (Rabs (f 1%nat) <= mu * f 2%nat)%R /\ (a <= f 2%nat <= b)%R.
Local Notation up := (@v3 Rnum 0%R 0%R 1%R).
Lemma unit_keeps (a : vec Rnum) : dot3 a a = 1%R -> forall i, i < 3 -> vget (normalize3 rsq a) i = vget a i.
Proof.
  intros H i _. unfold normalize3. rewrite H. replace (@nltb Rnum n0 1%R) with true by (symmetry; apply Rltb_true; change (@n0 Rnum) with 0%R; lra).
  cbn [vget]. rewrite sqrt_1. unfold ndiv. cbn. field.
Qed.
Lemma up_tangent : tangent1 rsq up = cross up unit_x.
Proof.
  unfold tangent1. replace (nltb _ _) with false; [reflexivity|]. symmetry. apply Rltb_false. unfold norm3.
  replace (dot3 (cross up unit_x) (cross up unit_x)) with 1%R by (unfold dot3, cross, unit_x, v3; cbn; ring).
  rewrite sqrt_1. cbn [nofQ Rnum]. unfold Q2R. cbn. lra.
Qed.
Lemma up_one (f : nat -> R) : dot (vget (t_one rsq up)) f = f 1.
Proof.
  unfold t_one. rewrite up_tangent. unfold dot. rewrite !unit_keeps by (lia || (unfold dot3, cross, unit_x, v3; cbn; ring)). unfold cross, unit_x, v3. cbn. ring.
Qed.
Lemma up_two (f : nat -> R) : dot (vget (t_two rsq up)) f = (- f 0%nat)%R.
Proof.
  unfold t_two. rewrite up_tangent. unfold dot. rewrite !unit_keeps by (lia || (unfold dot3, cross, unit_x, v3; cbn; ring)). unfold cross, unit_x, v3. cbn. ring.
Qed.
Lemma up_up (f : nat -> R) : dot (vget up) f = f 2.
Proof. unfold dot, v3. cbn. ring. Qed.
Lemma paw_sat name (mu a b : R) f : (0 < mu)%R -> (2 * mu * b <= big)%R -> sat (force_ineq rsq KP name up mu a b) f <-> level_pyramid mu a b f.
Proof.
  intros Hm Hb. assert (NK : KP <> K2) by discriminate.
  assert (G : friction_ok (npts KP) (vget up) (vget (t_one rsq up)) (vget (t_two rsq up)) mu a b f <-> level_pyramid mu a b f).
  { unfold friction_ok, level_pyramid, pyramid, total_normal. cbn [npts]. rewrite rsum_S, rsum_0, up_up. change (at_point f 0 2) with (f 2). replace (0 + f 2%nat)%R with (f 2%nat) by ring. split.
    - intros [P Q]. destruct (P 0 ltac:(lia)) as [P1 P2]. rewrite up_one, up_up in P1. rewrite up_two, up_up, Rabs_Ropp in P2. change (at_point f 0 0) with (f 0) in P2. change (at_point f 0 1) with (f 1) in P1. change (at_point f 0 2) with (f 2) in P1, P2. auto.
    - intros (P1 & P2 & Q). split; [|exact Q]. intros i Hi. replace i with 0 by lia. rewrite up_one, up_two, up_up, Rabs_Ropp. split; assumption. }
  rewrite <- G. split; [apply ineq_meaning; exact NK|apply ineq_complete; assumption].
Qed.
Lemma parts_sat c f : c_kind c = CIneq -> (let '(B, lb, ub) := parts c in in_holds B lb ub f) <-> sat c f.
Proof. intros E. unfold parts, in_holds, sat, lhs. rewrite E. reflexivity. Qed.
(** The bounds on the torques. *)
Lemma bounds_ok jk nv lim : exists u, bounds_task jk nv lim = Some u /\ task_data_ok CIneq nv nv (u_c u) /\ c_kind (u_c u) = CIneq /\
  forall tau, sat (u_c u) tau <-> forall q, q < nv -> (- vget (tau_max nv lim) q <= tau q <= vget (tau_max nv lim) q)%R.
Proof.
  unfold bounds_task. destruct (actb_new_ok Rtrunc good_ones_R jk "task-actuation-bounds" nv) as (u0 & E0 & I0 & M0). rewrite E0. cbn [obind].
  assert (Ac : actives (u_mask u0) = seq 0 nv) by (rewrite M0; apply MaskReal.ones_actives; intros i _; reflexivity).
  destruct (actb_set Rtrunc "task-actuation-bounds" nv u0 (tau_min nv lim) (tau_max nv lim) I0) as (u1 & E1 & I1 & M1 & L & U); [rewrite Ac, seq_length; reflexivity|rewrite Ac, seq_length; reflexivity|].
  rewrite E1. exists u1. split; [reflexivity|].
  assert (U0 : umade Rtrunc "task-actuation-bounds" nv u0) by (exists jk, u0; split; [exact E0|constructor]).
  assert (U1 : umade Rtrunc "task-actuation-bounds" nv u1) by (eapply umade_step; [exact U0| |rewrite E1; reflexivity]; exact Logic.I).
  assert (Me := actb_meaning _ _ _ U1). rewrite M1, Ac, L, U in Me.
  destruct I1 as [_ (_ & _ & _ & [R1 _] & R2 & _) _ KD Ll Lu]. rewrite M1, Ac, seq_length in *. split; [|split; [exact KD|]].
  - unfold task_data_ok, crows. rewrite KD, R1, Ll, Lu, Nat.eqb_refl, R2. auto.
  - intros tau. rewrite Me. split.
    + intros H q Hq. apply (H q q). rewrite (nth_error_nth' (seq 0 nv) 0) by (rewrite seq_length; exact Hq). rewrite seq_nth by exact Hq. reflexivity.
    + intros H j i Hj. assert (Lj : j < nv) by (rewrite <- (seq_length nv 0); apply nth_error_Some; congruence).
      apply (nth_error_nth _ _ 0) in Hj. rewrite seq_nth in Hj by exact Lj. cbn in Hj. subst i. exact (H j Lj).
Qed.
(** What the formulations hold. *)
Definition gripper_sheet (nv : nat) (read : bool) : sheet :=
  mkSheet [closure] [0] [(1%R, Some ("base-dynamics", CEq, 0)); (1%R, Some ((closure_name ++ "_force_constraint")%string, CIneq, 3)); (1%R, Some ("task-actuation-bounds", CIneq, nv))]
    [(1%R, Some ("task-fingertip-position", CEq, 6)); ((/ 1000)%R, Some ("task-posture", CEq, nv));
     (1%R, Some ((closure_name ++ "_motion_task")%string, CEq, 3)); ((/ 100000)%R, Some ((closure_name ++ "_force_reg_task")%string, CEq, 3))]
    ([(0, "task-fingertip-position", 1); (1, "task-posture", 1)], [], [(2, "task-actuation-bounds", 0)], [], []) read.
Definition paw_soft (n : string) := [(1%R, Some ((n ++ "_motion_task")%string, CEq, 3)); ((/ 100000)%R, Some ((n ++ "_force_reg_task")%string, CEq, 3))].
Definition quadruped_sheet (nv : nat) (read : bool) : sheet :=
  mkSheet (map paw paw_names) [0; 1; 2; 3] ((1%R, Some ("base-dynamics", CEq, nv - (nv - 6))) :: map (fun n => (1%R, Some ((n ++ "_force_constraint")%string, CIneq, 5))) paw_names)
    (flat_map paw_soft paw_names ++ [(1%R, Some ("task-com", CEq, 3)); ((/ 1000)%R, Some ("task-posture", CEq, nv - 6))])
    ([(0, "task-com", 1); (1, "task-posture", 1)], [], [], [], []) read.
Definition blank_data nv na e0 : robot_data nv e0 -> data_fits nv na (blank nv na) e0.
Proof.
  intros (D1 & D2 & D3 & D4). split; [exact D4|]. split; [exact D1|]. split; [exact D2|]. split; [exact D3|]. split; [intros o x []|]. cbn. split; intros id n l w kd r [].
Qed.
Lemma weights : (0 <= / 1000)%R /\ (0 <= / 100000)%R /\ (0 <= 1)%R /\ (0 <= 0)%R.
Proof. lra. Qed.

Lemma gripper_start dbg nv (M0 : mat Rnum) H0 e0 : FormMain.robot_ok nv M0 H0 -> robot_data nv e0 ->
  exists s, calls dbg (init nv nv M0 H0) (gripper_setup nv e0) = Some s /\ now dbg nv nv M0 H0 (gripper_sheet nv false) s.
Proof.
  intros R0 D. destruct (now_calls dbg nv nv M0 H0 R0 (gripper_setup nv e0) _ _ (now_blank dbg nv nv M0 H0)) as (s & E & N).
  - destruct weights as (W1 & W2 & W3 & W4). split; [exact (blank_data nv nv e0 D)|]. cbn [next blank sh_objs sh_cs sh_q0 sh_q1 sh_book sh_read].
    split; [|split; [|split; [|split; [|split; [|exact I]]]]].
    + split; [|reflexivity]. split; [exact W3|]. split; [exact W4|]. split; [lia|]. split; [reflexivity|]. split; [reflexivity|right; reflexivity].
    + split; [|reflexivity]. split; [exact W1|]. split; [exact W4|]. split; [lia|]. split; [reflexivity|]. split; [reflexivity|right; reflexivity].
    + exact I.
    + split; [reflexivity|]. split; [exact W2|]. split; [exact W3|]. split; [reflexivity|]. exists closure. split; [reflexivity|intros []].
    + split; [exact W3|]. split; [exact W4|]. split; [lia|]. split; [reflexivity|]. split; [reflexivity|left; reflexivity].
  - exists s. split; [exact E|]. replace (gripper_sheet nv false) with (fold_left next (gripper_setup nv e0) (blank nv nv)); [exact N|].
    cbn. unfold gripper_sheet, blank. cbn. rewrite Nat.sub_diag. reflexivity.
Qed.
Lemma contact_fits nv o (x : cobj Rnum) c (e : env Rnum) : contact_of nv o c e -> co_mrows x = 3 -> co_nforce x = 3 -> co_rrows x = 3 ->
  (forall a b, mrows (c_mat (c a b)) = co_frows x /\ mcols (c_mat (c a b)) = 3 /\ vlen (c_lb (c a b)) = co_frows x /\ vlen (c_ub (c a b)) = co_frows x) -> contact_data_ok nv e o x.
Proof.
  intros (C1 & C2 & C3 & C4 & C5 & C6 & C7 & C8 & C9) X1 X2 X3 X4. unfold contact_data_ok. destruct (e_cmotion e o) as [A b]. destruct (e_creg e o) as [C d]. cbn [fst snd] in *. rewrite X1, X2, X3.
  repeat (split; [assumption|]). split; [|auto]. intros fmin fmax. rewrite C9. exact (X4 fmin fmax).
Qed.
Lemma gripper_fits jk nv lim e read : gripper_data jk nv lim e -> data_fits nv nv (gripper_sheet nv read) e.
Proof.
  intros ((D1 & D2 & D3 & D4) & Dc & D5 & D6 & u & Eu & Du). split; [exact D4|]. split; [exact D1|]. split; [exact D2|]. split; [exact D3|]. split; [|split].
  - intros o x [<-|[]] Hx. injection Hx as <-. apply (contact_fits nv 0 closure _ e Dc); try reflexivity. intros a b. repeat split; reflexivity.
  - intros id n l w kd r [H|[H|[]]]; injection H as <- <- <-; cbn [gripper_sheet sh_q0 sh_q1 app]; intros Hi;
      repeat (destruct Hi as [Hi|Hi]; [try discriminate Hi; injection Hi; intros; subst; assumption|]); destruct Hi.
  - destruct (bounds_ok jk nv lim) as (u' & Eu' & B1 & _). rewrite Eu in Eu'. injection Eu' as <-. rewrite Nat.sub_diag, Nat.sub_0_r.
    intros id n l w kd r [H|[]]; injection H as <- <- <-; cbn [gripper_sheet sh_q0 sh_q1 app]; intros Hi; rewrite Du;
      repeat (destruct Hi as [Hi|Hi]; [try discriminate Hi; injection Hi; intros; subst; assumption|]); destruct Hi.
Qed.
Section Gripper.
Variables (dbg : bool) (jk : nat -> nat) (nv : nat) (lim : nat -> R) (M0 : mat Rnum) (H0 : vec Rnum) (e0 : env Rnum).
Hypotheses (R0 : FormMain.robot_ok nv M0 H0) (D0 : robot_data nv e0).
Local Notation step := (@Formulation.step Rnum dbg).
Definition gripper_period (p : period) : Prop := gripper_data jk nv lim (p_e p) /\ vlen (p_y p) = nv + 3.
Lemma gripper_loop l : forall b s, now dbg nv nv M0 H0 (gripper_sheet nv b) s -> Forall gripper_period l ->
  exists s' b', calls dbg s (flat_map gripper_turn l) = Some s' /\ now dbg nv nv M0 H0 (gripper_sheet nv b') s'.
Proof.
  induction l as [|p l IH]; intros b s N F; [exists s, b; auto|]. inversion F as [|? ? [F1 F2] F']; subst.
  destruct (now_calls dbg nv nv M0 H0 R0 (gripper_turn p) _ _ N) as (s1 & E1 & N1).
  { split; [exact (gripper_fits jk nv lim (p_e p) b F1)|]. split; [exact F2|]. split; [exact F2|exact I]. }
  destruct (IH true s1 N1 F') as (s' & b' & E & N'). exists s', b'. split; [|exact N']. cbn [flat_map]. rewrite WalkingQ.calls_app, E1. exact E.
Qed.
Theorem gripper_runs l : Forall gripper_period l -> exists s, calls dbg (init nv nv M0 H0) (gripper_calls nv e0 l) = Some s.
Proof.
  intros F. destruct (gripper_start dbg nv M0 H0 e0 R0 D0) as (s & E & N). destruct (gripper_loop l false s N F) as (s' & b & E' & _).
  exists s'. unfold gripper_calls. rewrite WalkingQ.calls_app, E. exact E'.
Qed.
Lemma gripper_now l s : Forall gripper_period l -> calls dbg (init nv nv M0 H0) (gripper_calls nv e0 l) = Some s -> exists b, now dbg nv nv M0 H0 (gripper_sheet nv b) s.
Proof.
  intros F Es. destruct (gripper_start dbg nv M0 H0 e0 R0 D0) as (s1 & E & N). destruct (gripper_loop l false s1 N F) as (s' & b & E' & N').
  unfold gripper_calls in Es. rewrite WalkingQ.calls_app, E, E' in Es. injection Es as <-. exists b. exact N'.
Qed.
Theorem gripper_answers l s t e : Forall gripper_period l -> calls dbg (init nv nv M0 H0) (gripper_calls nv e0 l) = Some s ->
  gripper_data jk nv lim e -> RobotModelR.posdef nv (mget (e_mass e)) -> (forall q, q < nv -> (0 <= lim q)%R) ->
  exists s' y, step s (@OCompute Rnum t e) = Ret s' OutUnit /\ vlen y = nv + 3 /\ planned dbg nv nv M0 H0 (fun _ => "") e s' reg8 y.
Proof.
  intros F Es De PD Hl. destruct (gripper_now l s F Es) as (b & N).
  apply (now_answer dbg nv nv M0 H0 R0 (gripper_sheet nv b) s t e (fun _ => 0%R) N (gripper_fits jk nv lim e b De) PD).
  - intros o x [<-|[]] Hx. injection Hx as <-. destruct De as (_ & (_ & _ & _ & _ & _ & _ & _ & _ & Ec) & _). rewrite Ec.
    exists (fun _ => 0%R). apply (parts_sat _ _ (eq_refl : c_kind (force_ineq rsq K2 closure_name (vzero 0) 0%R (co_fmin closure) (co_fmax closure)) = CIneq)).
    apply box_sat. intros j _. cbn. lra.
  - intros id n [H|[]]. injection H as <- <-. destruct De as (_ & _ & _ & _ & u & Eu & ->). destruct (bounds_ok jk nv lim) as (u' & Eu' & _ & _ & B). rewrite Eu in Eu'. injection Eu' as <-.
    apply B. intros q Hq. cbn [tau_max vget]. specialize (Hl q Hq). destruct (q <? 2); lra.
Qed.
Theorem gripper_holds l s t e s' r y g s1 s2 tau : Forall gripper_period l -> calls dbg (init nv nv M0 H0) (gripper_calls nv e0 l) = Some s ->
  gripper_data jk nv lim e -> step s (@OCompute Rnum t e) = Ret s' OutUnit -> planned dbg nv nv M0 H0 (fun _ => "") e s' r y -> vlen y = nv + 3 ->
  gets s' g y = Some s1 -> get s1 GTau y = Ret s2 tau ->
  vlen tau = nv /\ (forall q, q < nv -> 2 <= q -> (Rabs (vget tau q) <= lim q)%R) /\ (forall q, q < nv -> q < 2 -> vget tau q = 0%R) /\
  (forall j, j < 3 -> (-1000 <= vget y (nv + j) <= 1000)%R) /\
  forall i, i < nv -> (@nsum Rnum nv (fun j => mget (e_mass e) i j * vget y j) + vget (e_nle e) i = vget tau i + @nsum Rnum 3 (fun k => jac e 0 k i * vget y (nv + k)%nat))%R.
Proof.
  intros F Es De E P L G1 G2. destruct (gripper_now l s F Es) as (b & N). assert (Df := gripper_fits jk nv lim e b De).
  assert (Ob := now_obeyed dbg nv nv M0 H0 R0 _ s t e s' r y N Df E P). assert (T := now_get dbg nv nv M0 H0 R0 _ s t e s' y g s1 s2 GTau tau N Df E L G1 G2).
  rewrite Nat.sub_diag, Nat.sub_0_r in T. destruct T as [T1 T2]. destruct De as (_ & (_ & _ & _ & _ & _ & _ & _ & _ & Ec) & _ & _ & u & Eu & Du).
  destruct (bounds_ok jk nv lim) as (u' & Eu' & _ & _ & B). rewrite Eu in Eu'. injection Eu' as <-.
  assert (A := ob_act _ _ _ _ _ Ob 2 "task-actuation-bounds" (or_introl eq_refl)). rewrite Du in A. rewrite B in A. rewrite Nat.sub_diag in A.
  split; [exact T1|]. split; [|split; [|split]].
  - intros q Hq Hp. specialize (A q Hq). rewrite (T2 q Hq). cbn [tau_max vget] in A. replace (q <? 2) with false in A by (symmetry; apply Nat.ltb_ge; lia). apply Rabs_le. exact A.
  - intros q Hq Hp. specialize (A q Hq). rewrite (T2 q Hq). cbn [tau_max vget] in A. replace (q <? 2) with true in A by (symmetry; apply Nat.ltb_lt; lia). cbn [Nat.add] in *. lra.
  - assert (Q := ob_force _ _ _ _ _ Ob 0 0 3 closure (or_introl eq_refl) eq_refl). rewrite Ec in Q.
    apply (parts_sat _ _ (eq_refl : c_kind (force_ineq rsq K2 closure_name (vzero 0) 0%R (co_fmin closure) (co_fmax closure)) = CIneq)) in Q. assert (Q' := proj1 (box_sat closure_name (vzero 0) 0%R (-1000)%R 1000%R _) Q). clear Q. rename Q' into Q.
    intros j Hj. specialize (Q j Hj). cbn beta in Q. rewrite Nat.add_0_r in Q. exact Q.
  - intros i Hi. rewrite (T2 i Hi). unfold effort, lsum. cbn [Nat.add places gripper_sheet sh_cs sh_objs map nforce nth_error co_nforce closure placed fold_right].
    change (Sheets.nforce [closure] 0) with 3. rewrite Nat.add_0_r. lra.
Qed.
End Gripper.

Lemma quadruped_start dbg nv (M0 : mat Rnum) H0 e0 : FormMain.robot_ok nv M0 H0 -> robot_data nv e0 ->
  exists s, calls dbg (init nv (nv - 6) M0 H0) (quadruped_setup nv e0) = Some s /\ now dbg nv (nv - 6) M0 H0 (quadruped_sheet nv false) s.
Proof.
  intros R0 D. destruct (now_calls dbg nv (nv - 6) M0 H0 R0 (quadruped_setup nv e0) _ _ (now_blank dbg nv (nv - 6) M0 H0)) as (s & E & N).
  - destruct weights as (W1 & W2 & W3 & W4). split; [exact (blank_data nv (nv - 6) e0 D)|]. cbn [next blank sh_objs sh_cs sh_q0 sh_q1 sh_book sh_read nth_error app].
    assert (Nx : forall n l, existsb (String.eqb n) l = false -> ~ In n l).
    { intros n l Hf Hi. assert (X : existsb (String.eqb n) l = true) by (apply existsb_exists; exists n; split; [exact Hi|apply String.eqb_refl]). congruence. }
    repeat (split; [exact I|split; [split; [reflexivity|split; [exact W2|split; [exact W3|split; [reflexivity|eexists; split; [reflexivity|apply Nx; reflexivity]]]]]|]]).
    split; [|split; [|exact I]].
    + split; [|reflexivity]. split; [exact W3|]. split; [exact W4|]. split; [lia|]. split; [reflexivity|]. split; [reflexivity|right; reflexivity].
    + split; [|reflexivity]. split; [exact W1|]. split; [exact W4|]. split; [lia|]. split; [reflexivity|]. split; [reflexivity|right; reflexivity].
  - exists s. split; [exact E|]. exact N.
Qed.
Lemma quadruped_fits nv e read : quadruped_data nv e -> data_fits nv (nv - 6) (quadruped_sheet nv read) e.
Proof.
  intros ((D1 & D2 & D3 & D4) & Dc & D5 & D6). split; [exact D4|]. split; [exact D1|]. split; [exact D2|]. split; [exact D3|]. split; [|split].
  - intros o x _ Hx. cbn [quadruped_sheet sh_objs] in Hx. rewrite nth_error_map in Hx. destruct (nth_error paw_names o) as [n|] eqn:En; [|discriminate Hx]. injection Hx as <-.
    apply (contact_fits nv o (paw n) _ e (Dc o n En)); try reflexivity. intros a b. repeat split; reflexivity.
  - intros id n l w kd r [H|[H|[]]]; injection H as <- <- <-; cbn [quadruped_sheet sh_q0 sh_q1 app map flat_map paw_names paw_soft]; intros Hi;
      repeat (destruct Hi as [Hi|Hi]; [try discriminate Hi; injection Hi; intros; subst; assumption|]); destruct Hi.
  - intros id n l w kd r [].
Qed.
Section Quadruped.
Variables (dbg : bool) (nv : nat) (M0 : mat Rnum) (H0 : vec Rnum) (e0 : env Rnum).
Hypotheses (R0 : FormMain.robot_ok nv M0 H0) (D0 : robot_data nv e0).
Local Notation step := (@Formulation.step Rnum dbg).
Definition quadruped_period (p : bool * period) : Prop := quadruped_data nv (p_e (snd p)) /\ vlen (p_y (snd p)) = nv + 12.
Lemma quadruped_loop l : forall b s, now dbg nv (nv - 6) M0 H0 (quadruped_sheet nv b) s -> Forall quadruped_period l ->
  exists s' b', calls dbg s (flat_map (fun bp => quadruped_turn (fst bp) (snd bp)) l) = Some s' /\ now dbg nv (nv - 6) M0 H0 (quadruped_sheet nv b') s'.
Proof.
  induction l as [|[pr p] l IH]; intros b s N F; [exists s, b; auto|]. inversion F as [|? ? [F1 F2] F']; subst. cbn [snd] in *.
  destruct (now_calls dbg nv (nv - 6) M0 H0 R0 (quadruped_turn pr p) _ _ N) as (s1 & E1 & N1).
  { split; [exact (quadruped_fits nv (p_e p) b F1)|]. split; [exact F2|]. split; [exact F2|]. destruct pr; [|exact I]. repeat (split; [exact F2|]). exact I. }
  assert (N2 : now dbg nv (nv - 6) M0 H0 (quadruped_sheet nv true) s1) by (destruct pr; exact N1).
  destruct (IH true s1 N2 F') as (s' & b' & E & N'). exists s', b'. split; [|exact N']. cbn [flat_map fst snd]. rewrite WalkingQ.calls_app, E1. exact E.
Qed.
Theorem quadruped_runs l : Forall quadruped_period l -> exists s, calls dbg (init nv (nv - 6) M0 H0) (quadruped_calls nv e0 l) = Some s.
Proof.
  intros F. destruct (quadruped_start dbg nv M0 H0 e0 R0 D0) as (s & E & N). destruct (quadruped_loop l false s N F) as (s' & b & E' & _).
  exists s'. unfold quadruped_calls. rewrite WalkingQ.calls_app, E. exact E'.
Qed.
Lemma quadruped_now l s : Forall quadruped_period l -> calls dbg (init nv (nv - 6) M0 H0) (quadruped_calls nv e0 l) = Some s -> exists b, now dbg nv (nv - 6) M0 H0 (quadruped_sheet nv b) s.
Proof.
  intros F Es. destruct (quadruped_start dbg nv M0 H0 e0 R0 D0) as (s1 & E & N). destruct (quadruped_loop l false s1 N F) as (s' & b & E' & N').
  unfold quadruped_calls in Es. rewrite WalkingQ.calls_app, E, E' in Es. injection Es as <-. exists b. exact N'.
Qed.
Lemma big_enough : (2 * (3 / 10) * 100 <= big)%R.
Proof. unfold big, Q2R. cbn. lra. Qed.
Lemma paw_force o n e f : quadruped_data nv e -> nth_error paw_names o = Some n ->
  (let '(B, lb, ub) := e_cforce e o (co_fmin (paw n)) (co_fmax (paw n)) in in_holds B lb ub f) <-> level_pyramid (3 / 10) 1 100 f.
Proof.
  intros (_ & Dc & _) En. destruct (Dc o n En) as (_ & _ & _ & _ & _ & _ & _ & _ & Ec). rewrite Ec.
  rewrite <- (paw_sat n (3 / 10) 1 100 f ltac:(lra) big_enough). apply parts_sat. reflexivity.
Qed.
Theorem quadruped_answers l s t e : Forall quadruped_period l -> calls dbg (init nv (nv - 6) M0 H0) (quadruped_calls nv e0 l) = Some s ->
  quadruped_data nv e -> RobotModelR.posdef nv (mget (e_mass e)) ->
  exists s' y, step s (@OCompute Rnum t e) = Ret s' OutUnit /\ vlen y = nv + 12 /\ planned dbg nv (nv - 6) M0 H0 (fun _ => "") e s' reg8 y.
Proof.
  intros F Es De PD. destruct (quadruped_now l s F Es) as (b & N).
  apply (now_answer dbg nv (nv - 6) M0 H0 R0 (quadruped_sheet nv b) s t e (fun _ => 0%R) N (quadruped_fits nv e b De) PD).
  - intros o x _ Hx. cbn [quadruped_sheet sh_objs] in Hx. rewrite nth_error_map in Hx. destruct (nth_error paw_names o) as [n|] eqn:En; [|discriminate Hx]. injection Hx as <-.
    assert (Q := fun f => proj2 (paw_force o n e f De En)). destruct (e_cforce e o (co_fmin (paw n)) (co_fmax (paw n))) as [[B lb] ub].
    exists (fun j => if j =? 2 then 1%R else 0%R). apply Q. unfold level_pyramid. cbn. rewrite Rabs_R0. lra.
  - intros id n [].
Qed.
Lemma four (f : nat -> R) : @nsum Rnum 4 f = (f 0%nat + f 1%nat + f 2%nat + f 3%nat)%R.
Proof. rewrite !rsum_S, rsum_0. match goal with |- @eq _ ?u ?v => change (@eq R u v) end. ring. Qed.
(** Force of paw [k] among the variables, and the torque the motion needs on row [i]. *)
Definition paw_at (y : nat -> R) (k : nat) : nat -> R := fun j => y (nv + 3 * k + j).
Theorem quadruped_holds l s t e s' r y : Forall quadruped_period l -> calls dbg (init nv (nv - 6) M0 H0) (quadruped_calls nv e0 l) = Some s ->
  quadruped_data nv e -> step s (@OCompute Rnum t e) = Ret s' OutUnit -> planned dbg nv (nv - 6) M0 H0 (fun _ => "") e s' r y ->
  (forall k, k < 4 -> level_pyramid (3 / 10) 1 100 (paw_at (vget y) k)) /\
  forall i, i < nv - (nv - 6) -> (@nsum Rnum nv (fun j => mget (e_mass e) i j * vget y j) + vget (e_nle e) i = @nsum Rnum 4 (fun k => @nsum Rnum 3 (fun j => jac e k j i * paw_at (vget y) k j)))%R.
Proof.
  intros F Es De E P. destruct (quadruped_now l s F Es) as (b & N). assert (Df := quadruped_fits nv e b De).
  assert (Ob := now_obeyed dbg nv (nv - 6) M0 H0 R0 _ s t e s' r y N Df E P). split.
  - intros k Hk. assert (Ek : exists n, nth_error paw_names k = Some n) by (destruct k as [|[|[|[|k]]]]; [eexists; reflexivity..|lia]). destruct Ek as (n & En).
    apply (paw_force k n e _ De En). apply (ob_force _ _ _ _ _ Ob k (3 * k) 3 (paw n)).
    + destruct k as [|[|[|[|k]]]]; [cbn; auto 6..|lia].
    + cbn [quadruped_sheet sh_objs]. rewrite nth_error_map, En. reflexivity.
  - intros i Hi. assert (B := ob_base _ _ _ _ _ Ob i Hi). unfold effort, lsum in B.
    change (places (quadruped_sheet nv b)) with [(0, 0, 3); (1, 3, 3); (2, 6, 3); (3, 9, 3)] in B. cbn [map fold_right] in B. rewrite four.
    unfold paw_at. cbn [Nat.mul Nat.add] in *. lra.
Qed.
(** What the program reads from the answer: accelerations, torques and the forces of the paws. *)
Theorem quadruped_reads l s t e s' y gs s1 s2 g v : Forall quadruped_period l -> calls dbg (init nv (nv - 6) M0 H0) (quadruped_calls nv e0 l) = Some s ->
  quadruped_data nv e -> step s (@OCompute Rnum t e) = Ret s' OutUnit -> vlen y = nv + 12 -> gets s' gs y = Some s1 -> get s1 g y = Ret s2 v ->
  match g with
  | GTau => forall q, vlen v = nv - (nv - (nv - 6)) /\ (q < vlen v -> let i := nv - (nv - 6) + q in
      (@nsum Rnum nv (fun j => mget (e_mass e) i j * vget y j) + vget (e_nle e) i = vget v q + @nsum Rnum 4 (fun k => @nsum Rnum 3 (fun j => jac e k j i * paw_at (vget y) k j)))%R)
  | GAcc => vlen v = nv /\ forall j, j < nv -> vget v j = vget y j
  | GForce => vlen v = 12 /\ forall j, j < 12 -> vget v j = vget y (nv + j)
  | GForceOf n => forall k, nth_error paw_names k = Some n -> vlen v = 3 /\ forall j, j < 3 -> vget v j = paw_at (vget y) k j
  end.
Proof.
  intros F Es De E L G1 G2. destruct (quadruped_now l s F Es) as (b & N). assert (Df := quadruped_fits nv e b De).
  assert (T := now_get dbg nv (nv - 6) M0 H0 R0 _ s t e s' y gs s1 s2 g v N Df E L G1 G2). destruct g; try exact T.
  - destruct T as [T1 T2]. intros q. split; [exact T1|]. intros Hq i. rewrite T1 in Hq. rewrite (T2 q Hq). unfold effort, lsum.
    change (places (quadruped_sheet nv b)) with [(0, 0, 3); (1, 3, 3); (2, 6, 3); (3, 9, 3)]. cbn [map fold_right]. rewrite four.
    unfold paw_at. cbn [Nat.mul Nat.add] in *. subst i. lra.
  - intros k En. apply (T k (3 * k) 3 (paw name)).
    + destruct k as [|[|[|[|k]]]]; [cbn; auto 6..|destruct k; discriminate En].
    + cbn [quadruped_sheet sh_objs]. rewrite nth_error_map, En. reflexivity.
    + reflexivity.
Qed.
End Quadruped.

(** * The closure of the chain is only a soft constraint *)
(** A gripper with two passive joints, unit masses, whose closure needs an acceleration of [a]. *)
Definition gripper_env (jk : nat -> nat) (lim : nat -> R) (a : R) : env Rnum :=
  mkEnv (mident 2 2) (vzero 2) (fun _ => (mident 3 2, rvec 3 (fun i => if i =? 0 then a else 0%R))) (fun _ => mident 3 3)
    (fun _ lo hi => parts (force_ineq rsq K2 closure_name (vzero 0) 0%R lo hi)) (fun _ => (mident 3 3, vzero 3))
    (fun id => match id with
               | 0 => mkConstr "" CEq (mzero 6 2) (vzero 6) (vzero 0) (vzero 0)
               | 1 => mkConstr "" CEq (mident 2 2) (vzero 2) (vzero 0) (vzero 0)
               | _ => match bounds_task jk 2 lim with Some u => u_c u | None => new_eq "" 0 0 end
               end) (fun _ => "") (fun _ => vzero 2).
Lemma gripper_env_data jk lim a : gripper_data jk 2 lim (gripper_env jk lim a).
Proof.
  split; [repeat split|]. split; [repeat split|]. split; [repeat split|]. split; [repeat split|].
  destruct (bounds_ok jk 2 lim) as (u & Eu & _). exists u. split; [exact Eu|]. cbn [gripper_env e_task]. rewrite Eu. reflexivity.
Qed.
Lemma ident_posdef n : RobotModelR.posdef n (mget (@mident Rnum n n)).
Proof.
  intros x (i & Hi & Hx). unfold RobotModelR.qform.
  assert (P : forall k, k < n -> @nsum Rnum n (fun j => mget (@mident Rnum n n) k j * x j)%R = x k).
  { intros k Hk. rewrite (rsum_single n k); [|exact Hk|].
    - cbn. rewrite Nat.eqb_refl. change (@n1 Rnum) with 1%R. ring.
    - intros j _ Hj. cbn. replace (k =? j) with false by (symmetry; apply Nat.eqb_neq; congruence). change (@n0 Rnum) with 0%R. ring. }
  assert (X : (0 < x i * x i)%R) by (apply Rsqr_pos_lt; exact Hx).
  rewrite (rsum_ext n _ (fun k => x k * x k)%R).
  - eapply Rlt_le_trans; [exact X|]. apply (rsum_le_one n (fun k => x k * x k)%R i); [intros j _; apply Rle_0_sqr|exact Hi].
  - intros k Hk. rewrite (P k Hk). reflexivity.
Qed.
Theorem closure_missed dbg jk lim M0 H0 e0 l s t s' r y a : FormMain.robot_ok 2 M0 H0 -> robot_data 2 e0 -> (1000 < a)%R -> Forall (gripper_period jk 2 lim) l ->
  calls dbg (init 2 2 M0 H0) (gripper_calls 2 e0 l) = Some s -> @Formulation.step Rnum dbg s (@OCompute Rnum t (gripper_env jk lim a)) = Ret s' OutUnit ->
  planned dbg 2 2 M0 H0 (fun _ => "") (gripper_env jk lim a) s' r y ->
  ~ eq_holds (fst (e_cmotion (gripper_env jk lim a) 0)) (snd (e_cmotion (gripper_env jk lim a) 0)) (vget y).
Proof.
  intros R0 D0 Ha F Es E P H. assert (De := gripper_env_data jk lim a). destruct (gripper_now dbg jk 2 lim M0 H0 e0 R0 D0 l s F Es) as (b & N).
  assert (Df := gripper_fits jk 2 lim _ b De). assert (Ob := now_obeyed dbg 2 2 M0 H0 R0 _ s t _ s' r y N Df E P).
  destruct (bounds_ok jk 2 lim) as (u & Eu & _ & _ & B).
  assert (A := ob_act _ _ _ _ _ Ob 2 "task-actuation-bounds" (or_introl eq_refl)). cbn [gripper_env e_task] in A. rewrite Eu in A. rewrite B in A. specialize (A 0 ltac:(lia)).
  assert (Q := ob_force _ _ _ _ _ Ob 0 0 3 closure (or_introl eq_refl) eq_refl).
  apply (parts_sat _ _ (eq_refl : c_kind (force_ineq rsq K2 closure_name (vzero 0) 0%R (co_fmin closure) (co_fmax closure)) = CIneq)) in Q.
  assert (Q' := proj1 (box_sat closure_name (vzero 0) 0%R (-1000)%R 1000%R _) Q 0 ltac:(lia)). specialize (H 0 ltac:(cbn; lia)).
  cbn in A, Q', H. unfold effort, lsum, jac in A. cbn in A. lra.
Qed.
(** A quadruped at rest with unit masses. *)
Definition quadruped_env (nv : nat) : env Rnum :=
  mkEnv (mident nv nv) (vzero nv) (fun _ => (mident 3 nv, vzero 3)) (fun _ => mident 3 3)
    (fun o lo hi => parts (force_ineq rsq KP (nth o paw_names "") (@v3 Rnum 0%R 0%R 1%R) (3 / 10)%R lo hi)) (fun _ => (mident 3 3, vzero 3))
    (fun id => if id =? 0 then mkConstr "" CEq (mident 3 nv) (vzero 3) (vzero 0) (vzero 0) else mkConstr "" CEq (mzero (nv - 6) nv) (vzero (nv - 6)) (vzero 0) (vzero 0)) (fun _ => "") (fun _ => vzero nv).
Lemma quadruped_env_data nv : quadruped_data nv (quadruped_env nv).
Proof.
  split; [repeat split|]. split; [|split].
  - intros o n Hn. do 8 (split; [reflexivity|]). intros a b. cbn [quadruped_env e_cforce]. rewrite (nth_error_nth _ _ "" Hn). reflexivity.
  - repeat split.
  - unfold task_data_ok, crows. cbn [quadruped_env e_task Nat.eqb c_kind c_mat c_vec mzero mrows mcols vzero vlen]. rewrite Nat.eqb_refl. auto.
Qed.
