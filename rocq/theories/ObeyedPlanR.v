(** A robot meeting the hypotheses of ObeyedPlanP.v: six velocities of the base and one joint, its
    foot on the ground, its centre of mass moved by the joint. *)
From Coq Require Import String List Arith Bool ZArith QArith Reals Lia Lra.
From Verif Require Import Scalar Outcome Linalg Constraint Formulation FormSpec FormDataSpec FormSafe FormSafe2 FormPhysSpec RSum FormMain FormCheck FormDecode FormTrans FormWitness FormSolver RobotModelR ObeyedPlan ObeyedPlanP.
From Verif Require Solvers SolverSpec SolverSizes SolverMain.
Import ListNotations.
Open Scope string_scope.
Open Scope list_scope.
Open Scope nat_scope.
Local Notation rsum := (@nsum Rnum).
Local Notation fstep := Formulation.step.

Definition foot7 : cobj Rnum := @mkCobj Rnum "foot" 6 6 6 6 true (-100)%R 100%R (fun v => vget v 2).
Definition env7 (F : mat Rnum) (b : vec Rnum) (c : constr Rnum) : env Rnum :=
  @mkEnv Rnum (mident 7 7) (@mkVec Rnum 7 (fun i => if i =? 2 then 10%R else 0%R))
        (fun _ => (mkMat 6 7 (mget F), mkVec 6 (vget b)))
        (fun _ => mident 6 6)
        (fun _ fmin fmax => (mident 6 6, mkVec 6 (fun _ => fmin), mkVec 6 (fun _ => fmax)))
        (fun _ => (mident 6 6, vzero 6))
        (fun _ => mkConstr (c_name c) CEq (mkMat 3 7 (mget (c_mat c))) (mkVec 3 (vget (c_vec c))) (c_lb c) (c_ub c))
        (fun _ => "") (fun _ => vzero 7).
Definition asc7 (_ : nat) : string := "".
Definition s7 : fstate Rnum := init 7 1 (mzero 7 7) (vzero 7).
Definition plan7 : list (fop Rnum) := [ONewContact foot7; @OAddContact Rnum 0 1%R 1%R 0; @OAddMotion Rnum 0 "com" CEq 3 1%R 0 0%R].
Section Scene.
Variables (dbg : bool) (F : mat Rnum) (b : vec Rnum) (c : constr Rnum).
Let e := env7 F b c.
Definition built7 : fstate Rnum := match okrun dbg (plain_step dbg) s7 plan7 with Some s => s | None => s7 end.
Definition end7 : fstate Rnum := match fstep dbg built7 (@OCompute Rnum 0%R e) with Ret s' _ => s' | _ => built7 end.
Lemma args7 : @args_ok Rnum 1%R 0%R = true.
Proof. destruct R_checks as (A & B & _). unfold args_ok. apply andb_true_intro. split; [exact B|exact A]. Qed.
Lemma uniform7 : uniform e.
Proof. intros o x y x' y'. cbn. auto. Qed.
Lemma reach7 : reach (fstep dbg) (assoc_good dbg asc7) s7 built7.
Proof.
  eapply (okrun_reach dbg (plain_step dbg) asc7 s7 plan7); [|constructor|].
  - eapply Forall_impl with (P := fun o => uniform_op o /\ assoc_fixed asc7 o /\ plain o).
    + intros o (H1 & H2 & H3). split; [exact H1|]. split; [exact H2|]. intros s. apply plain_step_ok. exact H3.
    + assert (A := args7). repeat constructor; simpl; auto.
  - unfold built7. destruct (okrun dbg (plain_step dbg) s7 plan7) eqn:E; [reflexivity|]. exfalso. revert E. destruct dbg; vm_compute; discriminate.
Qed.
Lemma good7 : assoc_good dbg asc7 built7 (@OCompute Rnum 0%R e).
Proof.
  split; [split|].
  - apply names_okb_ok. destruct dbg; vm_compute; reflexivity.
  - apply op_okb_ok; [apply uniform7|]. destruct dbg; vm_compute; reflexivity.
  - intros id. reflexivity.
Qed.
Lemma step7 : fstep dbg built7 (@OCompute Rnum 0%R e) = Ret end7 OutUnit.
Proof.
  assert (H : ret_unit (fstep dbg built7 (@OCompute Rnum 0%R e)) = true) by (destruct dbg; vm_compute; reflexivity).
  unfold end7. destruct (fstep dbg built7 _) as [s' r| |]; try discriminate. destruct r; try discriminate. reflexivity.
Qed.
Lemma lists7 : f_nv end7 = 7 /\ f_nu end7 = 6 /\ f_contacts end7 = [mkCl 0 0 1 2 3] /\ f_objs end7 = [foot7] /\ f_meas end7 = [] /\
  f_motions end7 = [mkTl 0 "com" 0 4] /\ f_forces end7 = [] /\ f_acts end7 = [].
Proof. destruct dbg; repeat split; vm_compute; reflexivity. Qed.
(** The plan: accelerations and forces. *)
Definition move7 (x : R) (i : nat) : R := if i =? 6 then x else if i <? 6 then vget b i else if i =? 9 then (vget b 2 + 10)%R else vget b (i - 7).
Hypothesis HF : forall i j, i < 6 -> j < 7 -> mget F i j = (if i =? j then 1%R else 0%R).
Hypothesis HB : forall i, i < 6 -> (-50 <= vget b i <= 50)%R.
Variable x : R.
Hypothesis HC : sat (e_task e 0) (fun j => if j =? 6 then x else vget b j).
Ltac entries := repeat match goal with |- context [mget F ?i ?j] => rewrite (HF i j) by lia end; cbn [Nat.eqb].
Lemma torque7 i : i < 7 -> needed_torque end7 e (move7 x) i = (if i =? 6 then x else 0%R).
Proof.
  intros Hi. destruct lists7 as (E1 & E2 & E3 & E4 & E5 & _). unfold needed_torque, meas_torque, contact_torque. rewrite E1, E3, E5. unfold lsum, cl_nforce, cobj_at.
  rewrite E4. unfold force_of. rewrite E1. do 7 (destruct i as [|i]; [cbn; unfold move7; entries; cbn; lra|]). lia.
Qed.
Lemma physical7 : physical end7 e (move7 x).
Proof.
  destruct lists7 as (E1 & E2 & E3 & E4 & E5 & E6 & E7 & E8). assert (T := torque7).
  constructor; rewrite ?E1, ?E2, ?E3, ?E4, ?E5, ?E6, ?E7, ?E8.
  - intros i Hi. rewrite T by lia. destruct (Nat.eqb_spec i 6); [lia|reflexivity].
  - intros k [<-|[]] _ i Hi. cbn in Hi. cbn [e env7 e_cmotion fst snd mcols vget]. do 6 (destruct i as [|i]; [cbn; unfold move7; entries; cbn; lra|]). lia.
  - intros k o [<-|[]] Ho. cbn in Ho. injection Ho as <-. cbn [cl_obj e_cforce e env7].
    intros i Hi. cbn in Hi. unfold force_of. rewrite E1. assert (B := HB i ltac:(lia)). do 6 (destruct i as [|i]; [cbn; unfold move7; cbn; cbn in B; lra|]). lia.
  - intros k [<-|[]] _. apply (sat_ext (e_task e 0) 7 (move7 x) (fun j => if j =? 6 then x else vget b j) 3 eq_refl eq_refl); [|exact HC]. intros j Hj. unfold move7. destruct (Nat.eqb_spec j 6) as [->|]; [reflexivity|]. replace (j <? 6) with true by (symmetry; apply Nat.ltb_lt; lia). reflexivity.
  - intros k [].
  - intros k [].
Qed.
Lemma level7 : forall en, In en (nth 1 (hqp end7) []) -> exists k, snd en = Some k /\ c_kind k = CEq /\ (0 <= (fst en : R))%R.
Proof.
  assert (A : map (fun e => (fst e, option_map c_kind (snd e))) (nth 1 (hqp end7) []) = [((1%R : Rnum), Some CEq)]) by (destruct dbg; vm_compute; reflexivity).
  intros [w o] He. apply (in_map (fun e => (fst e, option_map c_kind (snd e)))) in He. rewrite A in He. cbn [fst snd] in *.
  destruct o as [k|]; cbn [option_map] in He; [|destruct He as [He|[]]; discriminate].
  exists k. split; [reflexivity|]. destruct He as [He|[]]; injection He as H1 H2; (split; [congruence|rewrite <- H1; lra]).
Qed.
Lemma control7 : exists y tau, controls dbg 7 1 (mzero 7 7) (vzero 7) asc7 e end7 y tau.
Proof.
  destruct (problem_shape dbg 7 1 (mzero 7 7 : mat Rnum) (vzero 7) end7) as (cl0 & cl1 & E & _).
  - repeat split.
  - eapply reach_step; [|apply good7|rewrite step7; reflexivity]. assert (A := reach7).
    induction A as [|u o v Hr IH Hp Ha]; [constructor|]. eapply reach_step; [exact IH|apply Hp|exact Ha].
  - eapply (control_possible dbg 7 1 (mzero 7 7) (vzero 7) asc7 built7 0%R e end7 cl0 cl1); [repeat split|exact reach7|exact good7|exact step7|exact E| |exists (move7 x); exact physical7].
    intros w k Hin. destruct (level7 (w, Some k)) as (k' & H1 & H2).
    + rewrite E. cbn [map nth]. apply in_map_iff. exists (w, k). auto.
    + cbn in H1. injection H1 as <-. exact H2.
Qed.
Lemma independent7 : independent end7 e.
Proof.
  intros w H k q Hk Hq. destruct lists7 as (E1 & _ & E3 & _). rewrite E3 in Hk. destruct Hk as [<-|[]]. cbn [foot_mat e env7 e_cmotion fst mrows cl_obj] in Hq.
  assert (X := H q). rewrite E1 in X. specialize (X ltac:(lia)). unfold ground_torque in X. rewrite E3 in X. unfold lsum in X. cbn [map fold_right foot_mat e env7 e_cmotion fst mrows mget cl_obj] in X.
  rewrite (rsum_single 6 q) in X; [|exact Hq|intros i Hi Hn; rewrite HF by lia; replace (i =? q) with false by (symmetry; apply Nat.eqb_neq; lia); ring].
  rewrite HF, Nat.eqb_refl in X by lia. lra.
Qed.
Hypothesis HZ : forall i, i < 6 -> vget b i = 0%R.
Hypothesis HU : forall z, sat (e_task e 0) z -> (forall j, j < 6 -> z j = 0%R) -> z 6 = x.
Lemma hard7 : all_hard end7.
Proof.
  intros k Hk. destruct lists7 as (_ & _ & E3 & E4 & _). rewrite E3 in Hk. destruct Hk as [<-|[]]. unfold hard_motion, cl_name, cobj_at. rewrite E4. cbn [cl_obj nth_error co_name foot7].
  assert (N : In (Some "foot_motion_task") (map (@entry_name Rnum) (nth 0 (hqp end7) []))) by (destruct dbg; vm_compute; auto 10).
  revert N. generalize (nth 0 (hqp end7) []). intros l N. rewrite in_map_iff in N. destruct N as (en & N1 & N2). exists en. split; [exact N2|exact N1].
Qed.
Lemma posdef7 : posdef 7 (mget (e_mass e)).
Proof.
  intros z (i & Hi & Hz). unfold qform. assert (E : rsum 7 (fun i => z i * rsum 7 (fun j => mget (e_mass e) i j * z j))%R = rsum 7 (fun i => z i * z i)%R).
  { apply rsum_ext. intros k Hk. f_equal. rewrite (rsum_single 7 k) by (exact Hk || (intros j Hj Hn; cbn; replace (k =? j) with false by (symmetry; apply Nat.eqb_neq; lia); cbn; ring)). cbn. rewrite Nat.eqb_refl. cbn. ring. }
  rewrite E. assert (S : forall k, (0 <= z k * z k)%R) by (intros k; apply Rle_0_sqr). assert (P : (0 < z i * z i)%R) by (apply Rsqr_pos_lt; exact Hz).
  rewrite !rsum_S, rsum_0. assert (S0 := S 0). assert (S1 := S 1). assert (S2 := S 2). assert (S3 := S 3). assert (S4 := S 4). assert (S5 := S 5). assert (S6 := S 6).
  do 7 (destruct i as [|i]; [lra|]). lia.
Qed.
Definition joint7 (j : nat) : R := if j =? 6 then x else 0%R.
Lemma driven7 log3 : stuck log3 7 (mkMat 6 7 (mget F), mkVec 6 (vget b)) joint7 -> driven log3 7 e 0 joint7.
Proof.
  intros ST. destruct control7 as (y & tau & C). destruct lists7 as (E1 & E2 & E3 & E4 & E5 & E6 & _).
  destruct (control_facts _ _ _ _ _ _ _ _ _ _ C) as (Ph & _).
  assert (Z : forall j, j < 6 -> vget y j = 0%R).
  { intros j Hj. assert (H := ph_motion _ _ _ Ph (mkCl 0 0 1 2 3)). rewrite E3 in H. specialize (H (or_introl eq_refl) (hard7 _ ltac:(rewrite E3; left; reflexivity)) j Hj).
    cbn [cl_obj e env7 e_cmotion fst snd mcols vget mget] in H. rewrite HZ in H by exact Hj.
    rewrite (rsum_single 7 j) in H; [|lia|intros k Hk Hn; rewrite HF by lia; replace (j =? k) with false by (symmetry; apply Nat.eqb_neq; lia); ring].
    rewrite HF, Nat.eqb_refl in H by lia. lra. }
  assert (Y : vget y 6 = x). { apply HU; [|exact Z]. apply (ph_mtask _ _ _ Ph (mkTl 0 "com" 0 4)); [rewrite E6; left; reflexivity|reflexivity]. }
  assert (J : forall j, j < 7 -> joint7 j = vget y j). { intros j Hj. unfold joint7. destruct (Nat.eqb_spec j 6) as [->|N]; [symmetry; exact Y|symmetry; apply Z; lia]. }
  exists dbg, 1, (mzero 7 7), (vzero 7), asc7, end7, y, tau, (planned_action end7 e (vget y)).
  split; [exact C|]. split; [exact posdef7|]. split; [|split; [exact hard7|split]].
  - intros i Hi. rewrite <- (plan_obeys _ _ _ _ _ _ _ _ _ _ C i Hi). do 2 f_equal. apply rsum_ext. intros j Hj. rewrite J by lia. reflexivity.
  - intros k Hk. exact ST.
  - exists (mkTl 0 "com" 0 4). rewrite E6. split; [left; reflexivity|]. split; reflexivity.
Qed.
End Scene.

(** * The loop *)
From Verif Require Import Masks MaskReal FrameTasks FrameTasksP FrameTasksR FrameSetters FrameRefute ContactMotion ContactMotionP LinearLoop ClosedLoop ClosedLoopR RotLoop RotLoop2 OrientLoop OrientLoopR ContactHold ContactHoldP ContactHoldR.
(** The foot: gains of any value, reference where the foot is. *)
Lemma foot_rows log3 kp kd x : reads9 log3 -> principal log3 -> exists s1, let c := h_c (x_h s1) in
  rests_six log3 7 (foot_of c) (joint7 x) (set_up 6 kp kd true) rest7 /\ mrows (c_mat c) = 6 /\ mcols (c_mat c) = 7 /\ vlen (c_vec c) = 6 /\
  (forall i j, i < 6 -> mget (c_mat c) i j = if i =? j then 1%R else 0%R) /\ (forall i, i < 6 -> vget (c_vec c) i = 0%R).
Proof.
  intros HL HP. set (jk := @mkVec Rnum 6 (fun _ => 0%R)). destruct (agrees_six log3 "foot" 7 jk) as (s0 & E0 & A0).
  destruct (agrees_run log3 "foot" 7 true (set_up 6 kp kd true) no_wish s0 A0) as (s & E & A). destruct (can_compute log3 "foot" 7 true _ s rest7 A) as (s1 & E1). exists s1. cbv zeta.
  destruct (rows_of log3 "foot" 7 true _ s rest7 s1 A E1) as (K & R & C & V).
  assert (H : rests_six log3 7 (foot_of (h_c (x_h s1))) (joint7 x) (set_up 6 kp kd true) rest7).
  { exists "foot", jk, s0, s, s1. split; [exact E0|]. split; [exact E|]. split; [exact E1|]. split; [reflexivity|]. split; [apply id6_proper|].
    intros i Hi. split; [reflexivity|]. exact (rest_accel x i Hi). }
  assert (FR : forall i j, i < 6 -> mget (c_mat (h_c (x_h s1))) i j = if i =? j then 1%R else 0%R).
  { intros i j Hi. destruct (se3_done Rtrunc log3 "foot" 7 s rest7 s1 (ag_made _ _ _ _ _ _ A) E1) as (_ & _ & _ & _ & _ & _ & _ & _ & _ & _ & _ & D).
    rewrite (ag_mask _ _ _ _ _ _ A), ons_ones in D. destruct (D i i) as (D1 & _); [do 6 (destruct i as [|i]; [reflexivity|]); lia|].
    rewrite D1. unfold se3_J. rewrite (ag_loc _ _ _ _ _ _ A). reflexivity. }
  repeat (split; [assumption|]). intros i Hi.
  assert (S : eq_holds (fst (foot_of (h_c (x_h s1)))) (snd (foot_of (h_c (x_h s1)))) (joint7 x)).
  { apply (stuck_held log3 7 _ _ HL HP). exists (set_up 6 kp kd true), rest7. left. split; [exact H|]. split; [intros k Hk; reflexivity|intros p q Hp Hq; reflexivity]. }
  cbn [foot_of fst snd] in S. rewrite <- (S i) by (rewrite V; exact Hi). rewrite C. rewrite (rsum_single 7 i) by (lia || (intros j Hj Hn; rewrite FR by lia; replace (i =? j) with false by (symmetry; apply Nat.eqb_neq; lia); ring)).
  unfold joint7. replace (i =? 6) with false by (symmetry; apply Nat.eqb_neq; lia). apply Rmult_0_r.
Qed.
(** Centre of mass moved along x by the joint. *)
Definition cd7 (t : R) : cdata Rnum := @mkCd Rnum (fun i => if i =? 0 then g t else 0%R) (fun i => if i =? 0 then (- g t)%R else 0%R) (fun _ => 0%R) (fun i j => if (i =? 0) && (j =? 6) then 1%R else 0%R).
Lemma accel7 t z i : i < 3 -> accel 7 (g_J (cd7 t)) (g_a (cd7 t)) z i = if i =? 0 then z 6 else 0%R.
Proof. intros Hi. unfold accel. do 3 (destruct i as [|i]; [cbn; ring|]). lia. Qed.
Lemma eta_constr (c : constr Rnum) m n : c_kind c = CEq -> mrows (c_mat c) = m -> mcols (c_mat c) = n -> vlen (c_vec c) = m ->
  mkConstr (c_name c) CEq (mkMat m n (mget (c_mat c))) (mkVec m (vget (c_vec c))) (c_lb c) (c_ub c) = c.
Proof. intros <- <- <- E. rewrite <- E. destruct c as [nm k [r q f] [l h] lb ub]. cbn in *. subst. reflexivity. Qed.
Lemma eta_foot (c : constr Rnum) : mrows (c_mat c) = 6 -> mcols (c_mat c) = 7 -> vlen (c_vec c) = 6 -> (mkMat 6 7 (mget (c_mat c)), mkVec 6 (vget (c_vec c))) = foot_of c.
Proof. intros <- <- E. unfold foot_of. destruct c as [nm k [r q f] [l h] lb ub]. cbn in *. subst. reflexivity. Qed.
Theorem standing_loop log3 kp kd : reads9 log3 -> principal log3 -> exists (s s' : R -> comt Rnum) (d : R -> cdata Rnum) (e : R -> env Rnum) (a : R -> nat -> R),
  (forall t, (0 <= t)%R -> driven log3 7 (e t) 0 (a t) /\ @com_made Rnum Rtrunc "com" 7 (s t) /\ on (z_mask (s t)) 0 /\ z_kp (s t) 0 = 1%R /\ z_kd (s t) 0 = 2%R /\
     com_step Rtrunc (s t) (ZCompute (d t)) = Ret (s' t) tt /\ e_task (e t) 0 = h_c (z_h (s' t))) /\
  (forall t, exists s1, e_cmotion (e t) 0 = foot_of (h_c (x_h s1)) /\ rests_six log3 7 (foot_of (h_c (x_h s1))) (a t) (set_up 6 kp kd true) rest7) /\
  twice (fun t => g_p (d t) 0) (fun t => g_v (d t) 0) (fun t => accel 7 (g_J (d t)) (g_a (d t)) (a t) 0) /\
  twice (fun t => vget (z_val (s t)) 0) (fun t => vget (z_der (s t)) 0) (fun t => vget (z_sec (s t)) 0) /\
  (g_p (d 0) 0%nat - vget (z_val (s 0)) 0%nat = 1)%R.
Proof.
  intros HL HP.
  destruct (com_start "com" 7) as (s0 & M0 & A0 & _ & _ & V0 & D0 & S0).
  destruct (com_setters Rtrunc s0) as (H & _). destruct (H (@mkVec Rnum 3 (fun _ => 1%R)) eq_refl) as (s1 & E1 & C1 & _).
  destruct (com_setters Rtrunc s1) as (_ & H' & _). destruct (H' (@mkVec Rnum 3 (fun _ => 2%R)) eq_refl) as (s & E & C & _).
  unfold com_conf in C1, C. injection C1 as K1 K2 K3 K4 K5 K6. injection C as L1 L2 L3 L4 L5 L6.
  assert (M : com_made Rtrunc "com" 7 s).
  { destruct M0 as (jk & s00 & EE & RR). exists jk, s00. split; [exact EE|].
    eapply reach_step; [eapply reach_step; [exact RR|exact Logic.I|rewrite E1; reflexivity]|exact Logic.I|rewrite E; reflexivity]. }
  assert (MS : z_mask s = ones_n 3) by congruence. assert (VS : z_val s = @vzero Rnum 3) by congruence. assert (DS : z_der s = @vzero Rnum 3) by congruence. assert (SS : z_sec s = @vzero Rnum 3) by congruence.
  assert (RUN : forall t, exists s', com_step Rtrunc s (ZCompute (cd7 t)) = Ret s' tt).
  { intros t. apply (com_defined Rtrunc "com" 7 s (cd7 t) M). rewrite MS, VS, DS, SS. repeat split. destruct (mdim_01 _ (ones_n_01 3)) as [-> _]. cbn [vlen ones_n]. lia. }
  set (s' := fun t => match com_step Rtrunc s (ZCompute (cd7 t)) with Ret s' _ => s' | _ => s end).
  assert (RS : forall t, com_step Rtrunc s (ZCompute (cd7 t)) = Ret (s' t) tt) by (intros t; unfold s'; destruct (RUN t) as (u & ->); reflexivity).
  assert (LAW : forall t z, sat (h_c (z_h (s' t))) z <-> forall i, i < 3 -> (if i =? 0 then z 6 else 0%R) = (if i =? 0 then g t else 0%R)).
  { intros t z. rewrite (com_meaning _ _ _ _ _ M (RS t) z). split; intros Q i Hi.
    - assert (X := Q i Hi). rewrite accel7 in X by exact Hi. rewrite X by (rewrite MS; reflexivity). rewrite L1, K1, L2, VS, DS, SS. cbn [cd7 g_p g_v vget]. destruct (i =? 0); cbn; ring.
    - intros _. rewrite accel7 by exact Hi. rewrite Q by exact Hi. rewrite L1, K1, L2, VS, DS, SS. cbn [cd7 g_p g_v vget]. destruct (i =? 0); cbn; ring. }
  destruct (foot_rows log3 kp kd 0%R HL HP) as (sf & Hf). cbv zeta in Hf. destruct Hf as (Hf0 & R6 & C7 & V6 & FM & FV). set (c := h_c (x_h sf)) in *.
  assert (RST : forall x, rests_six log3 7 (foot_of c) (joint7 x) (set_up 6 kp kd true) rest7).
  { intros x. destruct Hf0 as (nm & jk & u0 & u & u1 & P1 & P2 & P3 & P4 & P5 & P6). exists nm, jk, u0, u, u1. repeat (split; [assumption|]). intros i Hi. split; [apply (P6 i Hi)|exact (rest_accel x i Hi)]. }
  assert (ETA : forall t, e_task (env7 (c_mat c) (c_vec c) (h_c (z_h (s' t)))) 0 = h_c (z_h (s' t))).
  { intros t. cbn [env7 e_task]. destruct (com_done _ _ _ _ _ _ M (RS t)) as (_ & _ & _ & _ & _ & _ & D & _). destruct D as [I1 I2 I3 I4 _ _ _ _ _]. rewrite MS in *. destruct (mdim_01 _ (ones_n_01 3)) as [EM _].
    apply eta_constr; [exact I1| |exact I3|]; rewrite ?I2, ?I4; rewrite EM; rewrite <- ?ons_ones; cbn [ones_n vlen]; try (rewrite ons_ones); try reflexivity. }
  exists (fun _ => s), s', cd7, (fun t => env7 (c_mat c) (c_vec c) (h_c (z_h (s' t)))), (fun t => joint7 (g t)).
  split; [|split; [|split; [|split]]].
  - intros t _. split; [|split; [exact M|split; [rewrite MS; reflexivity|split; [rewrite L1, K1; reflexivity|split; [rewrite L2; reflexivity|split; [apply RS|apply ETA]]]]]].
    apply (driven7 false).
    + intros i j Hi Hj. apply FM, Hi.
    + intros i Hi. rewrite FV by exact Hi. lra.
    + eapply (sat_ext _ 7 _ (joint7 (g t)) 3); [reflexivity|reflexivity|intros j Hj; unfold joint7; destruct (Nat.eqb_spec j 6); [reflexivity|apply FV; lia]|].
      rewrite ETA. apply LAW. intros i Hi. destruct (i =? 0); reflexivity.
    + exact FV.
    + intros z Sz _. rewrite ETA in Sz. apply (proj1 (LAW t z) Sz 0). lia.
    + rewrite (eta_foot c R6 C7 V6). exists (set_up 6 kp kd true), rest7. left. split; [apply RST|]. split; [intros k Hk; reflexivity|intros p q Hp Hq; reflexivity].
  - intros t. exists sf. split; [apply (eta_foot c R6 C7 V6)|apply RST].
  - apply twice_ext with (4 := g_twice); intros t; try reflexivity. rewrite accel7 by lia. reflexivity.
  - rewrite VS, DS, SS. exact zero_twice.
  - rewrite VS. cbn. unfold g. rewrite Rmult_0_r, exp_0. lra.
Qed.

(** * A foot held one unit away from its reference *)
Definition off7 : fdata Rnum := @mkFd Rnum id6 (fun i => if i =? 0 then (-1)%R else 0%R) (fun _ => 0%R) (fun _ => 0%R) id6.
Definition still7 : constr Rnum := @mkConstr Rnum "com" CEq (mzero 3 7) (vzero 3) (vzero 0) (vzero 0).
Theorem off_scene log3 kd : reads9 log3 -> principal log3 -> exists e s y tau c,
  controls false 7 1 (mzero 7 7) (vzero 7) asc7 e s y tau /\ In c (f_contacts s) /\ all_hard s /\
  rests_six log3 7 (e_cmotion e (cl_obj c)) (joint7 0) (set_up 6 (fun _ => 1%R) kd true) off7 /\
  (u_kp (told true (set_up 6 (fun _ => 1%R) kd true)) 0 * rot (tr (d_R off7)) (vminus (u_p (told true (set_up 6 (fun _ => 1%R) kd true))) (d_p off7)) 0 <> 0)%R.
Proof.
  intros HL HP. set (l := set_up 6 (fun _ => 1%R) kd true). set (jk := @mkVec Rnum 6 (fun _ => 0%R)). destruct (agrees_six log3 "foot" 7 jk) as (s0 & E0 & A0).
  destruct (agrees_run log3 "foot" 7 true l no_wish s0 A0) as (s & E & A). destruct (can_compute log3 "foot" 7 true _ s off7 A) as (s1 & E1).
  destruct (rows_of log3 "foot" 7 true _ s off7 s1 A E1) as (K & R & C & V).
  set (c := h_c (x_h s1)) in *.
  assert (H : rests_six log3 7 (foot_of c) (joint7 0) l off7).
  { exists "foot", jk, s0, s, s1. split; [exact E0|]. split; [exact E|]. split; [exact E1|]. split; [reflexivity|]. split; [apply id6_proper|].
    intros i Hi. split; [reflexivity|]. exact (rest_accel 0 i Hi). }
  assert (FR : forall i j, i < 6 -> mget (c_mat c) i j = if i =? j then 1%R else 0%R).
  { intros i j Hi. destruct (se3_done Rtrunc log3 "foot" 7 s off7 s1 (ag_made _ _ _ _ _ _ A) E1) as (_ & _ & _ & _ & _ & _ & _ & _ & _ & _ & _ & D).
    rewrite (ag_mask _ _ _ _ _ _ A), ons_ones in D. destruct (D i i) as (D1 & _); [do 6 (destruct i as [|i]; [reflexivity|]); lia|].
    unfold c. rewrite D1. unfold se3_J. rewrite (ag_loc _ _ _ _ _ _ A). reflexivity. }
  assert (ERR : forall i, i < 3 -> rot (tr id6) (vminus (fun _ => 0%R) (d_p off7)) i = if i =? 0 then 1%R else 0%R).
  { intros i Hi. rewrite (proj2 (id6_rot _ i Hi)). unfold vminus. cbn [off7 d_p]. destruct (i =? 0); lra. }
  assert (FV : forall i, i < 6 -> vget (c_vec c) i = if i =? 0 then 1%R else 0%R).
  { intros i Hi. set (a := fun j => vget (c_vec c) j).
    assert (S : eq_holds (c_mat c) (c_vec c) a).
    { intros r Hr. rewrite V in Hr. cbn match in Hr. rewrite C. rewrite (rsum_single 7 r) by (lia || (intros j Hj Hn; rewrite FR by lia; replace (r =? j) with false by (symmetry; apply Nat.eqb_neq; lia); ring)).
      rewrite FR, Nat.eqb_refl by exact Hr. unfold a. lra. }
    assert (Hy : holds_frame log3 (told true l) off7 (accel 7 (d_J off7) (d_a off7) a)).
    { destruct (six_history log3 HL "foot" 7 jk l) as (s0' & s2 & F0 & F & _ & _ & G). rewrite E0 in F0. injection F0 as <-. cbn match in F. rewrite E in F. injection F as <-.
      destruct (G off7) as (s3 & F' & _ & _ & M). change (se3_step Rtrunc log3 s (XCompute off7) = Ret s3 tt) in F'. rewrite E1 in F'. injection F' as <-. apply M. apply kind_sat; [exact K|exact S]. }
    assert (AC : accel 7 (d_J off7) (d_a off7) a i = a i). { cbn [off7 d_J d_a]. rewrite accel_id6 by lia. ring. }
    unfold l in Hy. rewrite told_six in Hy. destruct Hy as [H1 H2]. cbn [u_kp u_kd u_p u_R] in H1, H2. change (d_R off7) with (id6 : rmat) in H1, H2.
    destruct (Nat.lt_ge_cases i 3) as [L|L].
    - specialize (H1 i L). rewrite AC, ERR in H1 by exact L. change (d_v off7 i) with 0%R in H1. change (vget (c_vec c) i) with (a i). destruct (i =? 0); lra.
    - specialize (H2 (i - 3) ltac:(lia)). unfold ang in H2. replace (3 + (i - 3)) with i in H2 by lia. rewrite AC, same_error in H2 by (assumption || lia). change (d_v off7 i) with 0%R in H2. change (vget (c_vec c) i) with (a i).
      replace (i =? 0) with false by (symmetry; apply Nat.eqb_neq; lia). lra. }
  assert (HB : forall i, i < 6 -> (-50 <= vget (c_vec c) i <= 50)%R) by (intros i Hi; rewrite FV by exact Hi; destruct (i =? 0); lra).
  assert (HF : forall i j, i < 6 -> j < 7 -> mget (c_mat c) i j = if i =? j then 1%R else 0%R) by (intros i j Hi _; apply FR, Hi).
  set (e := env7 (c_mat c) (c_vec c) still7).
  assert (HS : sat (e_task e 0) (fun j => if j =? 6 then 0%R else vget (c_vec c) j)).
  { intros i Hi. cbn in Hi. cbn. lra. }
  destruct (control7 false (c_mat c) (c_vec c) still7 HF HB 0%R HS) as (y & tau & CT). fold e in CT.
  exists e, (end7 false (c_mat c) (c_vec c) still7), y, tau, (mkCl 0 0 1 2 3).
  split; [exact CT|]. destruct (lists7 false (c_mat c) (c_vec c) still7) as (_ & _ & E3 & _). split; [rewrite E3; left; reflexivity|]. split; [apply hard7|]. split.
  - cbn [cl_obj]. assert (X : e_cmotion e 0 = foot_of c) by (apply eta_foot; [exact R|exact C|exact V]). rewrite X. exact H.
  - unfold l. rewrite told_six. cbn [u_kp u_p]. change (d_R off7) with (id6 : rmat). rewrite ERR by lia. cbn [Nat.eqb]. lra.
Qed.
(** * A robot that follows its plan *)
Theorem follow_scene : exists e s y tau w a,
  controls false 7 1 (mzero 7 7) (vzero 7) asc7 e s y tau /\ posdef 7 (mget (e_mass e)) /\ obeys s e tau w a /\ all_hard s /\ feet_held s e a /\ independent s e /\
  exists c, In c (f_contacts s) /\ mrows (foot_mat e c) = 6.
Proof.
  set (F := mident 6 7 : mat Rnum). set (b := vzero 6 : vec Rnum). set (e := env7 F b still7).
  assert (HF : forall i j, i < 6 -> j < 7 -> mget F i j = if i =? j then 1%R else 0%R) by (intros i j _ _; reflexivity).
  assert (HB : forall i, i < 6 -> (-50 <= vget b i <= 50)%R) by (intros i Hi; cbn; lra).
  assert (HS : sat (e_task e 0) (fun j => if j =? 6 then 0%R else vget b j)) by (intros i Hi; cbn in Hi; cbn; lra).
  destruct (control7 false F b still7 HF HB 0%R HS) as (y & tau & CT). fold e in CT.
  exists e, (end7 false F b still7), y, tau, (planned_action (end7 false F b still7) e (vget y)), (vget y). destruct (lists7 false F b still7) as (_ & _ & E3 & _).
  split; [exact CT|]. split; [apply posdef7|]. split; [exact (plan_obeys _ _ _ _ _ _ _ _ _ _ CT)|]. split; [apply hard7|]. split; [|split].
  - destruct (control_facts _ _ _ _ _ _ _ _ _ _ CT) as (Ph & _). intros c Hc. apply (ph_motion _ _ _ Ph c Hc). apply hard7, Hc.
  - exact (independent7 false F b still7 HF).
  - exists (mkCl 0 0 1 2 3). rewrite E3. split; [left; reflexivity|reflexivity].
Qed.
