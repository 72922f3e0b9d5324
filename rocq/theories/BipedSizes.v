(** The data that computeProblemData needs from the robot, the contacts and the tasks of the exercise
    biped, in plain sizes; with it every period has an answer as soon as some motion is possible. *)
From Coq Require Import String List Arith Bool ZArith Lia Permutation Reals Lra.
From Verif Require Import Scalar Outcome Linalg Constraint Formulation ListUtil FormSpec FormDataSpec FormPhysSpec RSum FormInv FormInvB FormInvC FormOps FormSafe FormSafe2 FormContact FormHist FormDecode FormPhys FormMain FormSolver FormCheck SoftTasks SoftPlan SoftOrderR Walking WalkingSpec WalkingP WalkingQ BipedBook BipedPlan BipedBest.
From Verif Require Solvers SolverSpec SolverSizes SolverMain.
Import ListNotations.
Open Scope string_scope.
Open Scope list_scope.
Open Scope nat_scope.

(** * Specification *)
(** A foot with four points: 12 forces, 17 rows of friction (contact-6d.cpp:91-118). *)
Definition foot_sized (nv : nat) (e : env Rnum) (o : nat) : Prop := contact_data_ok nv e o (@Walking.six Rnum "" 0%R 0%R (fun _ => 0%R)).
Record sized (C : conf Rnum) (nv na : nat) (on : list nat) (e : env Rnum) : Prop := mkSized {
  sz_robot : sizes_ok nv e;
  sz_feet : forall o, In o on -> foot_sized nv e o;
  sz_com : task_data_ok CEq 3 nv (e_task e 0);
  sz_cop : task_data_ok CEq 3 (12 * List.length on) (e_task e 1);
  sz_am : task_data_ok CEq 3 nv (e_task e 2);
  sz_posture : task_data_ok CEq (n_posture C) nv (e_task e 3);
  sz_left : task_data_ok CEq 6 nv (e_task e 4);
  sz_right : task_data_ok CEq 6 nv (e_task e 5);
  sz_torque : (0 < w_torque_bounds C)%R -> task_data_ok CIneq na (nv - (nv - na)) (e_task e 6);
  sz_joint : (0 < w_joint_bounds C)%R -> task_data_ok CIneq nv nv (e_task e 7) }.
(** Rules of use, without looking into the formulation: a foot is added when it is off, removed at
    once when it is on; the data has the sizes above; getters get vectors of the right length. *)
Definition used (C : conf Rnum) (nv na : nat) (b : biped Rnum) (o : bop Rnum) : Prop :=
  flag_rule b o /\
  match o with
  | Compute _ e => sized C nv na (objs (b_rf b) (b_lf b)) e /\ whole e
  | Get _ _ => data_rule b o
  | _ => True
  end.

(** * Proofs *)
Section B.
Variables (dbg : bool) (C : conf Rnum) (nv na : nat) (M0 : mat Rnum) (H0 : vec Rnum) (fmin fmax : R) (nf nf' : vec Rnum -> R).
Local Notation step := (@Formulation.step Rnum dbg).
Local Notation x := (@Walking.six Rnum "contact_rfoot" fmin fmax nf).
Local Notation y := (@Walking.six Rnum "contact_lfoot" fmin fmax nf').
Hypothesis Hrob : FormMain.robot_ok nv M0 H0.
Local Notation kept := (kept dbg C nv na M0 H0 fmin fmax nf nf').
Section S.
Variables (rf lf : bool) (s : fstate Rnum).
Hypothesis U : up dbg whole C nv na M0 H0 x y rf lf s.
Hypothesis Bk : book s = tasks_of C.
Lemma list_item t (i : string * ckind * nat) : In t (tasks s) -> info s (tl_cstr t) = Some i -> tl_prio t < 2 ->
  exists w, In (w, i) (if tl_prio t =? 0 then hard C nv na (feet rf lf) else soft C (feet rf lf)).
Proof.
  intros Ht Hi Hp. destruct (up_inv dbg C nv na M0 H0 fmin fmax nf nf' Hrob _ _ _ U) as (A & B & _). destruct (b_task _ B t Ht) as (_ & _ & (l & Hl & Hin)).
  destruct U as (cs & q0 & q1 & D & _ & P0 & P1). assert (It := d_items _ _ _ _ _ _ _ _ _ _ _ D). unfold items in It.
  destruct (f_hqp s) as [|l0 [|l1 [|? ?]]]; try discriminate. cbn [map] in It. injection It as <- <-. apply in_map_iff in Hin. destruct Hin as (a & Ea & Ha).
  assert (G : forall (q : list (Rnum * (string * ckind * nat))), In (fst a, info s (snd a)) (map (@lab Rnum) q) -> exists w, In (w, i) q).
  { intros q H. apply in_map_iff in H. destruct H as ([w j] & E & H). rewrite Ea, Hi in E. unfold lab in E. cbn in E. injection E as _ ->. eauto. }
  destruct (tl_prio t) as [|[|p]]; [| |lia]; cbn in Hl; injection Hl as <-; cbn [Nat.eqb]; apply G; (eapply Permutation_in; [eassumption|]); apply in_map_iff; exists a; auto.
Qed.
Lemma told_info t kd r : In t (tasks s) -> announced s t kd r -> info s (tl_cstr t) = Some (tl_name t, kd, r).
Proof.
  intros Ht (c & Hc & <- & <-). destruct (up_inv dbg C nv na M0 H0 fmin fmax nf nf' Hrob _ _ _ U) as (A & B & _). destruct (b_task _ B t Ht) as ((kd' & r' & E) & _).
  unfold info, shapes in *. rewrite nth_error_map, Hc in *. cbn in *. unfold shape in *. cbn in *. injection E as E1 _ _. rewrite E1. reflexivity.
Qed.
Lemma count_k : f_k s = 12 * List.length (objs rf lf).
Proof.
  destruct (up_stands dbg whole C nv na M0 H0 x y Hrob (x_six _ _ _) (y_six _ _ _) _ _ _ U) as (_ & Nv & _). destruct (up_inv dbg C nv na M0 H0 fmin fmax nf nf' Hrob _ _ _ U) as (_ & _ & N & _).
  unfold nVar in Nv. rewrite N in Nv. unfold objs, count in *. destruct rf, lf; cbn in *; lia.
Qed.
Ltac pick H := unfold hard, soft, foot_hard, foot_soft, feet in H;
  destruct ((n0 <=? w_contact C)%num), ((n0 <? w_torque_bounds C)%num), ((n0 <? w_joint_bounds C)%num), rf, lf; cbn in H;
  repeat match type of H with _ \/ _ => destruct H as [H|H] end; try contradiction; try discriminate.
Lemma sized_ok e : sized C nv na (objs rf lf) e -> whole e -> env_ok s e.
Proof.
  intros Z We. destruct (up_inv dbg C nv na M0 H0 fmin fmax nf nf' Hrob _ _ _ U) as (A & B & N & Nu & _). destruct (book_facts C s Bk) as (Bm & Bf & Ba & Me).
  unfold env_ok. cbv zeta. rewrite N, Nu, Me. destruct (sz_robot _ _ _ _ _ Z) as (Z1 & Z2 & Z3). repeat (split; [assumption|]). split; [|split; [intros m []|split; [|split]]].
  - intros c o Hc Ho. rewrite (con_foot dbg C nv na M0 H0 fmin fmax nf nf' Hrob _ _ _ U c Hc) in Ho. injection Ho as <-.
    assert (F := sz_feet _ _ _ _ _ Z _ (con_obj dbg C nv na M0 H0 fmin fmax nf nf' Hrob _ _ _ U c Hc)). unfold foot_sized, contact_data_ok in *. unfold foot_obj. destruct (cl_obj c =? 0); exact F.
  - intros t kd r Ht An. assert (Ht' : In t (tasks s)) by (unfold tasks; apply in_or_app; left; exact Ht). apply (told_info t kd r Ht') in An.
    assert (I := in_map entry_of _ _ Ht). rewrite Bm in I. unfold tasks_of in I. cbn [fst snd] in I. unfold entry_of in I. apply in_app_iff in I. destruct I as [I|I].
    + cbn in I. repeat (destruct I as [I|I]; [injection I as I1 I2 I3; rewrite <- I2 in An; destruct (list_item t _ Ht' An) as [w L]; [lia|]; rewrite <- I3 in L; cbn [Nat.eqb] in L; rewrite <- I1;
        pick L; injection L as _ <- <-; apply Z|]). contradiction.
    + destruct ((n0 <? w_joint_bounds C)%num) eqn:W; [|destruct I]. destruct I as [I|[]]. injection I as I1 I2 I3. rewrite <- I2 in An. destruct (list_item t _ Ht' An) as [w L]; [lia|]. rewrite <- I3 in L; cbn [Nat.eqb] in L. rewrite <- I1.
      apply ltb_pos in W. assert (Q := sz_joint _ _ _ _ _ Z W). pick L; injection L as _ <- <-; exact Q.
  - intros t kd r Ht An. assert (Ht' : In t (tasks s)) by (unfold tasks; apply in_or_app; right; apply in_or_app; left; exact Ht). apply (told_info t kd r Ht') in An.
    assert (I := in_map entry_of _ _ Ht). rewrite Bf in I. unfold entry_of in I. destruct I as [I|[]]. injection I as I1 I2 I3. rewrite <- I2 in An. destruct (list_item t _ Ht' An) as [w L]; [lia|]. rewrite <- I3 in L; cbn [Nat.eqb] in L. rewrite <- I1.
    unfold force_size. rewrite We. unfold force_slot. cbn [String.eqb snd]. rewrite count_k. assert (Q := sz_cop _ _ _ _ _ Z). clear Z. pick L; injection L as _ <- <-; exact Q.
  - intros t kd r Ht An. assert (Ht' : In t (tasks s)) by (unfold tasks; apply in_or_app; right; apply in_or_app; right; exact Ht). apply (told_info t kd r Ht') in An.
    assert (I := in_map entry_of _ _ Ht). rewrite Ba in I. unfold tasks_of in I. cbn [fst snd] in I. unfold entry_of in I.
    destruct ((n0 <? w_torque_bounds C)%num) eqn:W; [|destruct I]. destruct I as [I|[]]. injection I as I1 I2 I3. rewrite <- I2 in An. destruct (list_item t _ Ht' An) as [w L]; [lia|]. rewrite <- I3 in L; cbn [Nat.eqb] in L. rewrite <- I1.
    apply ltb_pos in W. assert (Q := sz_torque _ _ _ _ _ Z W). pick L; injection L as _ <- <-; exact Q.
Qed.
Lemma soft_equal en c : In en (nth 1 (hqp s) []) -> snd en = Some c -> c_kind c = CEq.
Proof.
  intros He Hc. destruct U as (cs & q0 & q1 & D & _ & _ & P1).
  assert (It := d_items _ _ _ _ _ _ _ _ _ _ _ D). unfold items in It. unfold hqp in He. destruct (f_hqp s) as [|l0 [|l1 [|? ?]]]; try discriminate. cbn [map] in It. injection It as _ <-. cbn [map nth] in He.
  apply in_map_iff in He. destruct He as (a & <- & Ha). cbn [deref snd] in Hc.
  assert (Q : In (fst a, info s (snd a)) (map (@lab Rnum) (soft C (feet rf lf)))) by (eapply Permutation_in; [exact P1|]; apply in_map_iff; exists a; auto).
  apply in_map_iff in Q. destruct Q as ([w [[n kd] r]] & Q1 & Q2). unfold lab in Q1. cbn [fst snd] in Q1. injection Q1 as _ Q1. 
  assert (Q3 : info s (snd a) = Some (n, kd, r)) by (symmetry; exact Q1). unfold info, shapes in Q3. rewrite nth_error_map in Q3. change (nth_error (f_heap s) (snd a) = Some c) in Hc. rewrite Hc in Q3. cbn in Q3. unfold shape in Q3. injection Q3 as _ Q4 _. rewrite Q4.
  pick Q2; injection Q2; congruence.
Qed.
End S.
Lemma kept_rule b t e : kept b -> sized C nv na (objs (b_rf b) (b_lf b)) e -> whole e -> data_rule b (Compute t e).
Proof. intros [F Bk] Z We. exact (sized_ok _ _ _ F Bk e Z We). Qed.
(** One period from a known state. *)
Section N.
Variables (b b' : biped Rnum) (t : Rnum) (e : env Rnum) (out : fout Rnum).
Hypotheses (Hc : conf_ok C) (Kb : kept b).
Local Notation on := (objs (b_rf b) (b_lf b)).
Hypotheses (Z : sized C nv na on e) (We : whole e).
Hypothesis Es : bstep dbg C b (Compute t e) = Ret b' out.
Lemma kept_best r v : answered (b_f b') r v -> exists place, placed on place /\ best C nv na fmin fmax on place e r (vget v) /\
  ((0 < r)%R -> (0 <= w_forceRef C)%R -> forall z, best C nv na fmin fmax on place e r z -> forall i, i < nv + 12 * List.length on -> z i = vget v i) /\
  (forall l g s1 s2 u, vlen v = nv + 12 * List.length on -> gets (b_f b') l v = Some s1 -> get s1 g v = Ret s2 u -> reads nv na on place e v g u).
Proof. exact (biped_period dbg C nv na M0 H0 fmin fmax nf nf' Hrob Hc b b' t e out Kb (kept_rule b t e Kb Z We) We Es r v). Qed.
Lemma kept_answer : (0 <= w_forceRef C)%R -> (forall place, placed on place -> exists z, possible C nv na fmin fmax on place e z) -> exists v, answered (b_f b') reg8 v.
Proof.
  intros Wf Ex. assert (Hd := kept_rule b t e Kb Z We).
  destruct (after dbg C nv na M0 H0 fmin fmax nf nf' Hrob b b' t e out Kb Hd We Es) as (U & B & St & Rc & Ag).
  destruct (Ex _ (con_placed dbg C nv na M0 H0 fmin fmax nf nf' Hrob _ _ _ U)) as [z Hz].
  destruct (plan_possible dbg nv na M0 H0 (fun _ => "") (b_f b) t e (b_f b') Hrob Rc Ag St (soft_equal _ _ _ U)
    (weights_fine dbg C nv na M0 H0 fmin fmax nf nf' Hrob Hc b b' t e out Kb Hd We Es Wf)) as (v & Pv).
  - exists z. apply (physical_possible dbg C nv na M0 H0 fmin fmax nf nf' Hrob _ _ _ U B e). exact Hz.
  - exists v. destruct Pv as (_ & s1 & t1 & cl0 & cl1 & bk & dbg' & jk & q & ans & u & q' & _ & _ & _ & A). exists cl0, cl1, bk, dbg', jk, q, ans, u, q'. exact A.
Qed.
End N.
Lemma used_kept b o : kept b -> used C nv na b o -> exists b' r, bstep dbg C b o = Ret b' r /\ kept b'.
Proof.
  intros Kb [P1 P2].
  assert (Q : data_rule b o /\ bseen whole o). { destruct o; try (split; [exact I|exact I]); try (split; [exact P2|exact I]); destruct P2 as [P2 P3]; split; try exact P3. apply kept_rule; assumption. }
  exact (kept_step dbg C nv na M0 H0 fmin fmax nf nf' Hrob b o Kb (proj1 Q) P1 (proj2 Q)).
Qed.
Lemma used_reach e0 e1 b0 b : conf_ok C -> sizes_ok nv e0 -> sizes_ok nv e1 -> whole e0 -> whole e1 -> biped_new dbg C nv na M0 H0 x y e0 e1 = Some b0 ->
  reach (bstep dbg C) (used C nv na) b0 b -> kept b.
Proof.
  intros Hc S0 S1 W0 W1 E. induction 1 as [|b1 o b2 R IH P A]; [exact (kept_start dbg C nv na M0 H0 fmin fmax nf nf' Hrob e0 e1 b0 Hc S0 S1 W0 W1 E)|].
  destruct (used_kept b1 o IH P) as (b' & r & E' & F). rewrite E' in A. cbn in A. injection A as <-. exact F.
Qed.
Section T.
Variables (e0 e1 : env Rnum) (b0 b : biped Rnum).
Hypotheses (Hc : conf_ok C) (S0 : sizes_ok nv e0) (S1 : sizes_ok nv e1) (W0 : whole e0) (W1 : whole e1).
Hypothesis E0 : biped_new dbg C nv na M0 H0 x y e0 e1 = Some b0.
Hypothesis Hr : reach (bstep dbg C) (used C nv na) b0 b.
Local Notation on := (objs (b_rf b) (b_lf b)).
(** Every call by the rules returns. *)
Theorem biped_returns o : used C nv na b o -> exists b' r, bstep dbg C b o = Ret b' r.
Proof. intros P. destruct (used_kept b o (used_reach e0 e1 b0 b Hc S0 S1 W0 W1 E0 Hr) P) as (b' & r & E & _). eauto. Qed.
Variables (t : Rnum) (e : env Rnum) (b' : biped Rnum) (out : fout Rnum).
Hypotheses (Z : sized C nv na on e) (We : whole e).
Hypothesis Es : bstep dbg C b (Compute t e) = Ret b' out.
Theorem biped_best r v : answered (b_f b') r v -> exists place, placed on place /\ best C nv na fmin fmax on place e r (vget v) /\
  ((0 < r)%R -> (0 <= w_forceRef C)%R -> forall z, best C nv na fmin fmax on place e r z -> forall i, i < nv + 12 * List.length on -> z i = vget v i) /\
  (forall l g s1 s2 u, vlen v = nv + 12 * List.length on -> gets (b_f b') l v = Some s1 -> get s1 g v = Ret s2 u -> reads nv na on place e v g u).
Proof. exact (kept_best b b' t e out Hc (used_reach e0 e1 b0 b Hc S0 S1 W0 W1 E0 Hr) Z We Es r v). Qed.
(** An answer exists as soon as some motion is possible. *)
Theorem biped_answer : (0 <= w_forceRef C)%R -> (forall place, placed on place -> exists z, possible C nv na fmin fmax on place e z) -> exists v, answered (b_f b') reg8 v.
Proof. exact (kept_answer b b' t e out Hc (used_reach e0 e1 b0 b Hc S0 S1 W0 W1 E0 Hr) Z We Es). Qed.
End T.
End B.
