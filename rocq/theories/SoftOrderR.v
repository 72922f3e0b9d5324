(** Concrete formulations for the theorems of SoftOrder.v, and what goes wrong when a force task
    is not placed on a contact. *)
From Coq Require Import String List Arith Bool ZArith QArith Lia Permutation Reals Lra.
From Verif Require Import Scalar Outcome Linalg Constraint Formulation ListUtil FormSpec FormDataSpec FormPhysSpec RSum FormSafe FormSafe2 FormMain FormCheck FormDecode FormSolver FormWitness SoftTasks SoftPlan SoftSame SoftOrder.
From Verif Require Solvers SolverSpec SolverSizes SolverMain.
Import ListNotations.
Open Scope string_scope.
Open Scope list_scope.
Open Scope nat_scope.
Local Notation rsum := (@nsum Rnum).

(** Regularisation of the eiquadprog back-ends. *)
Definition reg8 : R := (/ 100000000)%R.
(** As soon as some motion respects the hard constraints and the soft ones are equalities with
    non-negative weights, the solver can answer. *)
Lemma plan_sized dbg nv na (M0 : mat Rnum) H0 asc s t e s' : FormMain.robot_ok nv M0 H0 ->
  reach (step dbg) (assoc_good dbg asc) (init nv na M0 H0) s -> assoc_good dbg asc s (Formulation.OCompute t e) -> step dbg s (Formulation.OCompute t e) = Ret s' OutUnit ->
  (forall en c, In en (nth 1 (hqp s') []) -> snd en = Some c -> c_kind c = CEq) -> weights_ok s' -> (exists z, physical s' e z) ->
  exists y, vlen y = nVar s' /\ planned dbg nv na M0 H0 asc e s' reg8 y.
Proof.
  intros R0 Hr Ho Hs HE HW Ph.
  assert (Hr' : reach (step dbg) (good dbg) (init nv na M0 H0) s').
  { eapply reach_step; [|apply Ho|rewrite Hs; reflexivity]. clear - Hr.
    induction Hr as [|u o v Hr IH Hp Ha]; [constructor|]. eapply reach_step; [exact IH|apply Hp|exact Ha]. }
  destruct (problem_shape dbg nv na M0 H0 s' R0 Hr') as (cl0 & cl1 & E & _).
  assert (W : forall w c, In (w, c) cl1 -> c_kind c = CEq /\ (0 <= (w : R))%R).
  { intros w c Hin. assert (Hen : In (w, Some c) (nth 1 (hqp s') [])) by (unfold problem_of in E; rewrite E; cbn [map nth]; apply in_map_iff; exists (w, c); auto).
    split; [exact (HE _ c Hen eq_refl)|exact (HW _ Hen)]. }
  set (jk := (fun _ _ _ => n0) : Solvers.junk Rnum).
  set (q0 := @Solvers.solver_new Rnum Solvers.Fast jk false Solvers.St_optimal).
  assert (S0 : SolverSizes.solver_state Solvers.Fast dbg q0) by (exists jk, false, Solvers.St_optimal; constructor).
  destruct (solution_exists dbg nv na M0 H0 asc s t e s' cl0 cl1 Solvers.Fast dbg jk q0 Solvers.F_optimal R0 Hr Ho Hs E S0 I W Ph) as (y & q' & L & Hv & Ex); try (cbn; congruence).
  { split; discriminate. }
  exists y. split; [exact L|]. split; [exact R0|]. exists s, t, cl0, cl1, Solvers.Fast, dbg, jk, q0, Solvers.F_optimal, y, q'.
  repeat (split; [first [assumption | exact I | cbn; congruence]|]). reflexivity.
Qed.
Theorem plan_possible dbg nv na (M0 : mat Rnum) H0 asc s t e s' : FormMain.robot_ok nv M0 H0 ->
  reach (step dbg) (assoc_good dbg asc) (init nv na M0 H0) s -> assoc_good dbg asc s (Formulation.OCompute t e) -> step dbg s (Formulation.OCompute t e) = Ret s' OutUnit ->
  (forall en c, In en (nth 1 (hqp s') []) -> snd en = Some c -> c_kind c = CEq) -> weights_ok s' -> (exists z, physical s' e z) ->
  exists y, planned dbg nv na M0 H0 asc e s' reg8 y.
Proof. intros R0 Hr Ho Hs HE HW Ph. destruct (plan_sized dbg nv na M0 H0 asc s t e s' R0 Hr Ho Hs HE HW Ph) as (y & _ & P). exists y. exact P. Qed.

(** The contacts, tasks and data of FormWitness, with a force task that may act on all the forces. *)
Definition whole : constr Rnum := mkConstr "whole" CEq (@mkMat Rnum 1 3 (@row Rnum [0; 0; 1]%R)) (@mkVec Rnum 1 (fun _ => 2%R)) (vzero 0) (vzero 0).
Definition lean : constr Rnum := mkConstr "com" CEq (@mkMat Rnum 1 3 (@row Rnum [1; 2; 1]%R)) (@mkVec Rnum 1 (fun _ => 3%R)) (vzero 0) (vzero 0).
Definition env2 : env Rnum := let e := @one_env Rnum in
  mkEnv (e_mass e) (e_nle e) (e_cmotion e) (e_gen e) (e_cforce e) (e_creg e) (fun id => if id =? 3 then whole else if id =? 0 then lean else e_task e id) (e_assoc e) (e_meas e).
Definition two_a : list (fop Rnum) :=
  [ONewContact foot; ONewContact hand; OAddContact 0 n1 n1 0; OAddContact 1 n1 n1 0; OAddMotion 0 "com" CEq 1 n1 1 n0; OAddAct 2 "tau" CBound 2 n1 0 n0; OAddMeas 0 "push"].
Definition two_b : list (fop Rnum) :=
  [ONewContact foot; ONewContact hand; OAddMeas 0 "push"; OAddAct 2 "tau" CBound 2 n1 0 n0; OAddContact 1 n1 n1 0; OAddMotion 0 "com" CEq 1 n1 1 n0; OAddContact 0 n1 n1 0].
Definition force3 : list (fop Rnum) := [OAddForce 3 "whole" CEq 1 n1 0 n0].
Definition force1 : list (fop Rnum) := [OAddForce 1 "fc" CIneq 1 n1 0 n0].
Definition more : list (fop Rnum) := [OUpdTask "com" (4%R : Rnum)].
Definition go (e : env Rnum) dbg (l : list (fop Rnum)) : fstate Rnum := end_of dbg (@built Rnum dbg l) (Formulation.OCompute (@t0 Rnum) e).
Lemma env2_uniform : uniform env2. Proof. exact (@one_env_uniform Rnum). Qed.
Lemma scene2 dbg l : Forall (fun o => uniform_op o /\ assoc_fixed asc o /\ plain o) l ->
  some (okrun dbg (plain_step dbg) (@s0 Rnum) l) = true ->
  names_okb (built dbg l) (Formulation.OCompute (@t0 Rnum) env2) && op_okb dbg (built dbg l) (Formulation.OCompute (@t0 Rnum) env2) = true ->
  ret_unit (step dbg (built dbg l) (Formulation.OCompute (@t0 Rnum) env2)) = true ->
  reach (step dbg) (assoc_good dbg asc) (@s0 Rnum) (built dbg l) /\ assoc_good dbg asc (built dbg l) (Formulation.OCompute (@t0 Rnum) env2) /\
  step dbg (built dbg l) (Formulation.OCompute (@t0 Rnum) env2) = Ret (go env2 dbg l) OutUnit.
Proof.
  intros F H1 H2 H3. split; [|split].
  - eapply okrun_reach; [|constructor|apply built_ok; exact H1]. eapply Forall_impl; [|exact F].
    intros o (U1 & U2 & U3). split; [exact U1|]. split; [exact U2|]. intros s'. apply plain_step_ok; exact U3.
  - apply andb_true_iff in H2. destruct H2 as [H2 H2']. split; [split|].
    + apply names_okb_ok; exact H2.
    + apply op_okb_ok; [apply env2_uniform|exact H2'].
    + intros id; reflexivity.
  - unfold go, end_of. destruct (step dbg (built dbg l) _) as [s' r| |]; try discriminate. destruct r; try discriminate. reflexivity.
Qed.
Definition four : list (list (fop Rnum)) := [two_a; two_a ++ more; two_a ++ force1; two_b ++ force1; two_a ++ force3; two_b ++ force3].
Lemma four_scene dbg l : In l four ->
  reach (step dbg) (assoc_good dbg asc) (@s0 Rnum) (built dbg l) /\ assoc_good dbg asc (built dbg l) (Formulation.OCompute (@t0 Rnum) env2) /\
  step dbg (built dbg l) (Formulation.OCompute (@t0 Rnum) env2) = Ret (go env2 dbg l) OutUnit.
Proof.
  assert (A := args_pass R_checks). intros Hl. simpl in Hl.
  repeat (destruct Hl as [<-|Hl]; [apply scene2; [repeat constructor; simpl; auto| | |]; destruct dbg; vm_compute; reflexivity|]). contradiction.
Qed.

(** ** What is in them *)
Definition ca : list clevel := [mkCl 0 0 1 2 3; mkCl 1 2 4 5 6].
Definition cb : list clevel := [mkCl 1 0 2 3 4; mkCl 0 1 6 7 8].
Definition in_a (s : fstate Rnum) (w : R) (fl : list tlevel) : Prop :=
  f_nv s = 3 /\ f_nu s = 1 /\ nVar s = 6 /\ f_contacts s = ca /\ f_objs s = [foot; hand] /\ f_meas s = [(0, "push")] /\ f_motions s = [mkTl 0 "com" 1 7] /\ f_forces s = fl /\ f_acts s = [mkTl 2 "tau" 0 8] /\
  map (fun en => @entry_name Rnum en) (nth 0 (hqp s) []) =
    [Some "base-dynamics"; Some "foot_motion_task"; Some "foot_force_constraint"; Some "hand_motion_task"; Some "hand_force_constraint"; Some "tau"] ++ map (fun t => Some (tl_name t)) fl /\
  map (fun en => (fst en, @entry_name Rnum en, option_map (@c_kind Rnum) (snd en))) (nth 1 (hqp s) []) =
    [((1%R : Rnum), Some "foot_force_reg_task", Some CEq); ((1%R : Rnum), Some "hand_force_reg_task", Some CEq); ((w : Rnum), Some "com", Some CEq)].
Definition in_b (s : fstate Rnum) (w : R) (fl : list tlevel) : Prop :=
  f_nv s = 3 /\ f_nu s = 1 /\ nVar s = 6 /\ f_contacts s = cb /\ f_objs s = [foot; hand] /\ f_meas s = [(0, "push")] /\ f_motions s = [mkTl 0 "com" 1 5] /\ f_forces s = fl /\ f_acts s = [mkTl 2 "tau" 0 1] /\
  map (fun en => @entry_name Rnum en) (nth 0 (hqp s) []) =
    [Some "base-dynamics"; Some "tau"; Some "hand_motion_task"; Some "hand_force_constraint"; Some "foot_motion_task"; Some "foot_force_constraint"] ++ map (fun t => Some (tl_name t)) fl /\
  map (fun en => (fst en, @entry_name Rnum en, option_map (@c_kind Rnum) (snd en))) (nth 1 (hqp s) []) =
    [((1%R : Rnum), Some "hand_force_reg_task", Some CEq); ((w : Rnum), Some "com", Some CEq); ((1%R : Rnum), Some "foot_force_reg_task", Some CEq)].
Definition fw : list tlevel := [mkTl 3 "whole" 0 9].
Definition ff : list tlevel := [mkTl 1 "fc" 0 9].
Lemma lists_a dbg : in_a (go env2 dbg two_a) 1 [] /\ in_a (go env2 dbg (two_a ++ more)) 4 [] /\ in_a (go env2 dbg (two_a ++ force1)) 1 ff /\ in_a (go env2 dbg (two_a ++ force3)) 1 fw.
Proof. split; [|split; [|split]]; unfold in_a; destruct dbg; repeat split; vm_compute; reflexivity. Qed.
Lemma lists_b dbg : in_b (go env2 dbg (two_b ++ force1)) 1 ff /\ in_b (go env2 dbg (two_b ++ force3)) 1 fw.
Proof. split; unfold in_b; destruct dbg; repeat split; vm_compute; reflexivity. Qed.
(** ** Physical motions and costs *)
Lemma torque_a s w fl x i : in_a s w fl -> i < 3 ->
  needed_torque s env2 x i = (x i + (if i =? 0 then 9 else 2) - (if i =? 0 then x 3%nat + x 5%nat else if i =? 1 then x 4%nat else 0))%R.
Proof.
  intros (E1 & E2 & E3 & E4 & E5 & E6 & E7 & E8 & E9 & _) Hi. unfold needed_torque, meas_torque, contact_torque. rewrite E1, E4, E6. unfold lsum, cl_nforce, cobj_at, ca. rewrite E5. unfold force_of. rewrite E1.
  destruct i as [|[|[|i]]]; [| | |lia]; cbn; rewrite ?Q2R_val; cbn; lra.
Qed.
Lemma torque_b s w fl x i : in_b s w fl -> i < 3 ->
  needed_torque s env2 x i = (x i + (if i =? 0 then 9 else 2) - (if i =? 0 then x 3%nat + x 4%nat else if i =? 1 then x 5%nat else 0))%R.
Proof.
  intros (E1 & E2 & E3 & E4 & E5 & E6 & E7 & E8 & E9 & _) Hi. unfold needed_torque, meas_torque, contact_torque. rewrite E1, E4, E6. unfold lsum, cl_nforce, cobj_at, cb. rewrite E5. unfold force_of. rewrite E1.
  destruct i as [|[|[|i]]]; [| | |lia]; cbn; rewrite ?Q2R_val; cbn; lra.
Qed.
Lemma hard_in s c l : map (fun en => @entry_name Rnum en) (nth 0 (hqp s) []) = l -> In (Some (cl_name s c ++ "_motion_task")%string) l -> hard_motion s c.
Proof. intros <- H. apply in_map_iff in H. destruct H as (en & E & H). exists en. auto. Qed.
Lemma slot_a s w fl : in_a s w fl -> force_slot s "foot" = (3, 2).
Proof. intros (E1 & E2 & E3 & E4 & E5 & _). unfold force_slot, find_contact. rewrite E4. unfold ca, cl_nforce. cbn [take_contact]. unfold cl_name, cobj_at. rewrite E5, E1. reflexivity. Qed.
Lemma slot_b s w fl : in_b s w fl -> force_slot s "foot" = (4, 2).
Proof. intros (E1 & E2 & E3 & E4 & E5 & _). unfold force_slot, find_contact. rewrite E4. unfold cb, cl_nforce. cbn [take_contact]. unfold cl_name, cobj_at. rewrite E5, E1. reflexivity. Qed.
(** Only what the two contacts and the tasks ask for. *)
Lemma physical_a s w fl x : in_a s w fl -> In fl [[]; ff; fw] ->
  (x 0%nat = 0 /\ x 1%nat = 0 /\ x 3%nat + x 5%nat = 9 /\ -1000 <= x 3%nat <= 1000 /\ -40 <= x 4%nat <= 40 /\ 1 <= x 3%nat + x 4%nat <= 100 /\ 1 <= x 5%nat <= 50 /\ -50 <= x 2%nat + 2 <= 50 /\ (fl = fw -> x 5%nat = 2) /\ (fl = ff -> x 3%nat + x 4%nat <= 20))%R ->
  physical s env2 x.
Proof.
  intros I Hfl (X0 & X1 & X2 & X3 & X4 & X5 & X6 & X7 & X8 & X9). assert (SL := slot_a s w fl I). assert (T := torque_a s w fl x). specialize (fun i => T i I).
  destruct I as (E1 & E2 & E3 & E4 & E5 & E6 & E7 & E8 & E9 & _).
  constructor; rewrite ?E2, ?E4, ?E5, ?E7, ?E8, ?E9.
  - intros i Hi. rewrite T by lia. destruct i; [cbn; lra|lia].
  - intros c [<-|[<-|[]]] _ i Hi; cbn in Hi.
    + destruct i as [|[|i]]; [| |lia]; cbn; lra.
    + destruct i as [|i]; [|lia]; cbn; lra.
  - intros c o [<-|[<-|[]]] Ho; cbn in Ho; injection Ho as <-; cbn [cl_obj e_cforce env2 one_env Nat.eqb]; intros i Hi; cbn in Hi; unfold force_of; rewrite E1.
    + destruct i as [|[|[|i]]]; [| | |lia]; cbn; rewrite ?Q2R_val; cbn; lra.
    + destruct i as [|i]; [|lia]; cbn; rewrite ?Q2R_val; cbn; lra.
  - intros t [<-|[]] H; discriminate.
  - intros t Ht _. destruct Hfl as [<-|[<-|[<-|[]]]]; [contradiction| |]; destruct Ht as [<-|[]].
    { specialize (X9 eq_refl). change (e_assoc env2 (tl_task (mkTl 1 "fc" 0 9))) with "foot". rewrite SL. unfold sat. cbn [env2 one_env e_task tl_task Nat.eqb c_kind c_lb vlen fst]. intros i Hi. destruct i as [|i]; [|lia]. cbn. rewrite !Q2R_val. cbn. lra. }
    unfold sat. cbn [env2 e_task tl_task Nat.eqb whole c_kind]. intros i Hi. cbn in Hi. destruct i as [|i]; [|lia].
    specialize (X8 eq_refl). cbn. rewrite E1. cbn. lra.
  - intros t [<-|[]] _. unfold sat. cbn [env2 one_env e_task tl_task Nat.eqb c_kind c_lb vlen].
    intros i Hi. unfold lhs. cbn [c_kind c_ub vget]. rewrite T by lia. unfold FormWitness.q. simpl. rewrite !Q2R_val.
    destruct i as [|[|i]]; [| |lia]; simpl; lra.
Qed.
Lemma physical_b s w fl x : in_b s w fl -> In fl [[]; ff; fw] ->
  (x 0%nat = 0 /\ x 1%nat = 0 /\ x 3%nat + x 4%nat = 9 /\ -1000 <= x 4%nat <= 1000 /\ -40 <= x 5%nat <= 40 /\ 1 <= x 4%nat + x 5%nat <= 100 /\ 1 <= x 3%nat <= 50 /\ -50 <= x 2%nat + 2 <= 50 /\ (fl = fw -> x 5%nat = 2) /\ (fl = ff -> x 4%nat + x 5%nat <= 20))%R ->
  physical s env2 x.
Proof.
  intros I Hfl (X0 & X1 & X2 & X3 & X4 & X5 & X6 & X7 & X8 & X9). assert (SL := slot_b s w fl I). assert (T := torque_b s w fl x). specialize (fun i => T i I).
  destruct I as (E1 & E2 & E3 & E4 & E5 & E6 & E7 & E8 & E9 & _).
  constructor; rewrite ?E2, ?E4, ?E5, ?E7, ?E8, ?E9.
  - intros i Hi. rewrite T by lia. destruct i; [cbn; lra|lia].
  - intros c [<-|[<-|[]]] _ i Hi; cbn in Hi.
    + destruct i as [|i]; [|lia]; cbn; lra.
    + destruct i as [|[|i]]; [| |lia]; cbn; lra.
  - intros c o [<-|[<-|[]]] Ho; cbn in Ho; injection Ho as <-; cbn [cl_obj e_cforce env2 one_env Nat.eqb]; intros i Hi; cbn in Hi; unfold force_of; rewrite E1.
    + destruct i as [|i]; [|lia]; cbn; rewrite ?Q2R_val; cbn; lra.
    + destruct i as [|[|[|i]]]; [| | |lia]; cbn; rewrite ?Q2R_val; cbn; lra.
  - intros t [<-|[]] H; discriminate.
  - intros t Ht _. destruct Hfl as [<-|[<-|[<-|[]]]]; [contradiction| |]; destruct Ht as [<-|[]].
    { specialize (X9 eq_refl). change (e_assoc env2 (tl_task (mkTl 1 "fc" 0 9))) with "foot". rewrite SL. unfold sat. cbn [env2 one_env e_task tl_task Nat.eqb c_kind c_lb vlen fst]. intros i Hi. destruct i as [|i]; [|lia]. cbn. rewrite !Q2R_val. cbn. lra. }
    unfold sat. cbn [env2 e_task tl_task Nat.eqb whole c_kind]. intros i Hi. cbn in Hi. destruct i as [|i]; [|lia].
    specialize (X8 eq_refl). cbn. rewrite E1. cbn. lra.
  - intros t [<-|[]] _. unfold sat. cbn [env2 one_env e_task tl_task Nat.eqb c_kind c_lb vlen].
    intros i Hi. unfold lhs. cbn [c_kind c_ub vget]. rewrite T by lia. unfold FormWitness.q. simpl. rewrite !Q2R_val.
    destruct i as [|[|i]]; [| |lia]; simpl; lra.
Qed.
Lemma motion_a s w fl x : in_a s w fl -> physical s env2 x -> (x 0%nat = 0 /\ x 1%nat = 0 /\ x 3%nat + x 5%nat = 9)%R.
Proof.
  intros I P. assert (T := torque_a s w fl x 0 I ltac:(lia)). destruct I as (E1 & E2 & E3 & E4 & E5 & E6 & E7 & E8 & E9 & E10 & _).
  assert (Hm : hard_motion s (mkCl 0 0 1 2 3)). { eapply hard_in; [exact E10|]. unfold cl_name, cobj_at. rewrite E5. cbn. auto. }
  assert (Q := ph_motion _ _ _ P (mkCl 0 0 1 2 3)). rewrite E4 in Q. specialize (Q (or_introl eq_refl) Hm).
  assert (Q0 := Q 0 ltac:(cbn; lia)). assert (Q1 := Q 1 ltac:(cbn; lia)). cbn in Q0, Q1.
  assert (Bs := ph_base _ _ _ P 0 ltac:(rewrite E2; lia)). rewrite T in Bs. cbn in Bs. repeat split; lra.
Qed.
Lemma force_a s w x : in_a s w fw -> physical s env2 x -> (x 5%nat = 2)%R.
Proof.
  intros (E1 & E2 & E3 & E4 & E5 & E6 & E7 & E8 & E9 & E10 & _) P.
  assert (Q := ph_ftask _ _ _ P (mkTl 3 "whole" 0 9)). rewrite E8 in Q. specialize (Q (or_introl eq_refl) eq_refl 0 ltac:(cbn; lia)). cbn in Q. rewrite E1 in Q. cbn in Q. lra.
Qed.
Lemma force_b s w x : in_b s w fw -> physical s env2 x -> (x 5%nat = 2)%R.
Proof.
  intros (E1 & E2 & E3 & E4 & E5 & E6 & E7 & E8 & E9 & E10 & _) P.
  assert (Q := ph_ftask _ _ _ P (mkTl 3 "whole" 0 9)). rewrite E8 in Q. specialize (Q (or_introl eq_refl) eq_refl 0 ltac:(cbn; lia)). cbn in Q. rewrite E1 in Q. cbn in Q. lra.
Qed.
Definition entry (en : R * option (constr Rnum)) : R * option string * option ckind := (fst en, @entry_name Rnum en, option_map (@c_kind Rnum) (snd en)).
Lemma weight_list (s : fstate Rnum) n l : map entry (nth 1 (hqp s) []) = l ->
  soft_weight s n = lsum (fun p : R * option string * option ckind => match snd (fst p) with Some m => if String.eqb m n then fst (fst p) else 0%R | None => 0%R end) l.
Proof.
  intros <-. unfold soft_weight. rewrite lsum_map. apply lsum_ext. intros [v o] _. unfold named, entry. cbn [fst snd]. destruct (@entry_name Rnum (v, o)); reflexivity.
Qed.
Lemma level1_facts (s : fstate Rnum) l : map entry (nth 1 (hqp s) []) = l -> (forall p, In p l -> snd p = Some CEq /\ (0 <= fst (fst p))%R) ->
  (forall en c, In en (nth 1 (hqp s) []) -> snd en = Some c -> c_kind c = CEq) /\ weights_ok s.
Proof.
  intros El H. split.
  - intros [v o] c Hen Hc. cbn in Hc. assert (I : In (entry (v, o)) l) by (rewrite <- El; apply (in_map entry), Hen). apply H in I. unfold entry in I. cbn [fst snd] in I. rewrite Hc in I. destruct I as [I _]. cbn in I. congruence.
  - intros en Hen. assert (I : In (entry en) l) by (rewrite <- El; apply in_map, Hen). apply H in I. exact (proj2 I).
Qed.
Lemma weights_a s w fl : in_a s w fl -> (0 <= w)%R -> (forall en c, In en (nth 1 (hqp s) []) -> snd en = Some c -> c_kind c = CEq) /\ weights_ok s.
Proof.
  intros (_ & _ & _ & _ & _ & _ & _ & _ & _ & _ & E) Hw. eapply level1_facts; [exact E|]. intros p [<-|[<-|[<-|[]]]]; cbn [fst snd]; (split; [reflexivity|lra]).
Qed.
Lemma weights_b s w fl : in_b s w fl -> (0 <= w)%R -> (forall en c, In en (nth 1 (hqp s) []) -> snd en = Some c -> c_kind c = CEq) /\ weights_ok s.
Proof.
  intros (_ & _ & _ & _ & _ & _ & _ & _ & _ & _ & E) Hw. eapply level1_facts; [exact E|]. intros p [<-|[<-|[<-|[]]]]; cbn [fst snd]; (split; [reflexivity|lra]).
Qed.
Lemma weight_a s w fl n : in_a s w fl -> soft_weight s n = (if String.eqb "foot_force_reg_task" n then 1 else if String.eqb "hand_force_reg_task" n then 1 else if String.eqb "com" n then w else 0)%R.
Proof.
  intros (_ & _ & _ & _ & _ & _ & _ & _ & _ & _ & E). rewrite (weight_list s n _ E). unfold lsum. cbn [map fold_right fst snd].
  destruct (String.eqb_spec "foot_force_reg_task" n) as [<-|]; [cbn; lra|]. destruct (String.eqb_spec "hand_force_reg_task" n) as [<-|]; [cbn; lra|]. destruct (String.eqb "com" n); lra.
Qed.
Lemma weight_b s w fl n : in_b s w fl -> soft_weight s n = (if String.eqb "foot_force_reg_task" n then 1 else if String.eqb "hand_force_reg_task" n then 1 else if String.eqb "com" n then w else 0)%R.
Proof.
  intros (_ & _ & _ & _ & _ & _ & _ & _ & _ & _ & E). rewrite (weight_list s n _ E). unfold lsum. cbn [map fold_right fst snd].
  destruct (String.eqb_spec "foot_force_reg_task" n) as [<-|]; [cbn; lra|]. destruct (String.eqb_spec "hand_force_reg_task" n) as [<-|]; [cbn; lra|]. destruct (String.eqb "com" n); lra.
Qed.
Lemma cost_a s w fl x : in_a s w fl -> In fl [[]; ff; fw] ->
  (soft_cost s env2 x = w * ((x 0%nat + 2 * x 1%nat + x 2%nat - 3) * (x 0%nat + 2 * x 1%nat + x 2%nat - 3)) + x 3%nat * x 3%nat + x 4%nat * x 4%nat + x 5%nat * x 5%nat)%R /\
  (size_of s x = x 0%nat * x 0%nat + x 1%nat * x 1%nat + x 2%nat * x 2%nat + x 3%nat * x 3%nat + x 4%nat * x 4%nat + x 5%nat * x 5%nat)%R /\
  (error_of "com" s env2 x = (x 0%nat + 2 * x 1%nat + x 2%nat - 3) * (x 0%nat + 2 * x 1%nat + x 2%nat - 3))%R.
Proof.
  intros I Hfl. assert (W := fun n => weight_a s w fl n I). destruct I as (E1 & E2 & E3 & E4 & E5 & E6 & E7 & E8 & E9 & _).
  assert (Z : forall V, V "whole" = 0%R -> V "fc" = 0%R -> lsum (force_cost V s env2 x) fl = 0%R).
  { intros V HV HF. destruct Hfl as [<-|[<-|[<-|[]]]]; [reflexivity| |]; unfold lsum, force_cost; cbn [map fold_right ff fw tl_name]; rewrite ?HV, ?HF; lra. }
  split; [|split].
  - unfold soft_cost, cost_with. rewrite E4, E7, E8, E9, Z by (rewrite W; reflexivity). unfold lsum, motion_cost, act_cost, contact_cost, ca, cl_name, cobj_at. rewrite E5. cbn [map fold_right tl_name].
    rewrite !W. unfold force_of. rewrite E1. cbn. lra.
  - unfold size_of. rewrite E3. cbn. lra.
  - unfold error_of, cost_with. rewrite E4, E7, E8, E9, Z by reflexivity. unfold lsum, motion_cost, act_cost, contact_cost, ca, cl_name, cobj_at. rewrite E5. cbn [map fold_right tl_name].
    unfold force_of. rewrite E1. cbn. lra.
Qed.

(** ** Plans of these formulations *)
Local Notation plan_of dbg l y := (planned dbg 3 2 (mzero 3 3) (vzero 3) asc env2 (go env2 dbg l) reg8 y).
Lemma exists_plan dbg l x : In l four -> (forall en c, In en (nth 1 (hqp (go env2 dbg l)) []) -> snd en = Some c -> c_kind c = CEq) -> weights_ok (go env2 dbg l) ->
  physical (go env2 dbg l) env2 x -> exists y, plan_of dbg l y.
Proof.
  intros Hl HE HW Ph. destruct (four_scene dbg l Hl) as (A & B & C).
  apply (plan_possible dbg 3 2 (mzero 3 3) (vzero 3) asc _ _ env2 _ ltac:(repeat split) A B C HE HW). exists x; exact Ph.
Qed.
Definition pt (a b c : R) : nat -> R := fun i => match i with 3%nat => a | 4%nat => b | 5%nat => c | _ => 0%R end.
Lemma plans dbg : (exists y, plan_of dbg two_a y) /\ (exists y, plan_of dbg (two_a ++ more) y) /\ (exists y, plan_of dbg (two_a ++ force1) y) /\ (exists y, plan_of dbg (two_b ++ force1) y) /\
  (exists y, plan_of dbg (two_a ++ force3) y) /\ (exists y, plan_of dbg (two_b ++ force3) y).
Proof.
  destruct (lists_a dbg) as (A1 & A2 & A3 & A4). destruct (lists_b dbg) as (B1 & B2). split; [|split; [|split; [|split; [|split]]]].
  - destruct (weights_a _ _ _ A1) as [E W]; [lra|]. eapply (exists_plan dbg _ (pt 8 0 1)); auto; [simpl; auto|]. eapply physical_a; [exact A1|simpl; auto|]. cbn. repeat split; try lra; discriminate.
  - destruct (weights_a _ _ _ A2) as [E W]; [lra|]. eapply (exists_plan dbg _ (pt 8 0 1)); auto; [simpl; auto|]. eapply physical_a; [exact A2|simpl; auto|]. cbn. repeat split; try lra; discriminate.
  - destruct (weights_a _ _ _ A3) as [E W]; [lra|]. eapply (exists_plan dbg _ (pt 8 0 1)); auto; [simpl; tauto|]. eapply physical_a; [exact A3|simpl; auto|]. cbn. repeat split; try lra; try discriminate; intros _; lra.
  - destruct (weights_b _ _ _ B1) as [E W]; [lra|]. eapply (exists_plan dbg _ (pt 1 8 0)); auto; [simpl; tauto|]. eapply physical_b; [exact B1|simpl; auto|]. cbn. repeat split; try lra; try discriminate; intros _; lra.
  - destruct (weights_a _ _ _ A4) as [E W]; [lra|]. eapply (exists_plan dbg _ (pt 7 0 2)); auto; [simpl; tauto|]. eapply physical_a; [exact A4|simpl; auto|]. cbn. repeat split; try lra; try discriminate.
  - destruct (weights_b _ _ _ B2) as [E W]; [lra|]. eapply (exists_plan dbg _ (pt 1 8 2)); auto; [simpl; tauto|]. eapply physical_b; [exact B2|simpl; auto|]. cbn. repeat split; try lra; try discriminate.
Qed.
Lemma reg8_pos : (0 < reg8)%R. Proof. unfold reg8. lra. Qed.
Lemma least w r v a b c : (0 < w)%R -> (0 < r)%R -> ((w + r) * v = 3 * w)%R ->
  (w * ((0 + 2 * 0 + v - 3) * (0 + 2 * 0 + v - 3)) + 9/2 * (9/2) + 0 * 0 + 9/2 * (9/2) + r * (0 * 0 + 0 * 0 + v * v + 9/2 * (9/2) + 0 * 0 + 9/2 * (9/2)) <=
   w * ((0 + 2 * 0 + a - 3) * (0 + 2 * 0 + a - 3)) + b * b + c * c + (9 - b) * (9 - b) + r * (0 * 0 + 0 * 0 + a * a + b * b + c * c + (9 - b) * (9 - b)))%R.
Proof.
  intros Hw Hr K. assert (Ka := f_equal (Rmult a) K). assert (Kv := f_equal (Rmult v) K).
  assert (0 <= (w + r) * ((a - v) * (a - v)))%R by (apply Rmult_le_pos; [lra|apply Rle_0_sqr]).
  assert (0 <= (1 + r) * ((b - 9/2) * (b - 9/2)))%R by (apply Rmult_le_pos; [lra|apply Rle_0_sqr]).
  assert (0 <= (1 + r) * (c * c))%R by (apply Rmult_le_pos; [lra|apply Rle_0_sqr]). lra.
Qed.
(** Acceleration of the free joint: the task asks for 3, the regularisation for 0. *)
Lemma value_a dbg s y w : planned dbg 3 2 (mzero 3 3) (vzero 3) asc env2 s reg8 y -> in_a s w [] -> (0 < w)%R -> vget y 2 = (3 * w / (w + reg8))%R /\ error_of "com" s env2 (vget y) = (3 * reg8 / (w + reg8) * (3 * reg8 / (w + reg8)))%R.
Proof.
  intros P I Hw. assert (R := reg8_pos). destruct (plan_best _ _ _ _ _ _ _ _ _ _ P) as [Ph _]. assert (WK : weights_ok s) by (apply (weights_a _ _ _ I); lra).
  destruct (motion_a _ _ _ _ I Ph) as (Y0 & Y1 & Y3).
  assert (Q : (0 <= 3 * w / (w + reg8) <= 3)%R).
  { split; [apply Rmult_le_pos; [lra|left; apply Rinv_0_lt_compat; lra]|]. apply (Rmult_le_reg_r (w + reg8)); [lra|]. unfold Rdiv. rewrite Rmult_assoc, Rinv_l by lra. lra. }
  assert (K : ((w + reg8) * (3 * w / (w + reg8)) = 3 * w)%R) by (field; lra).
  set (v := (3 * w / (w + reg8))%R) in *.
  assert (E : vget y 2 = v).
  { symmetry. refine (plan_unique _ _ _ _ _ _ _ _ _ _ P (fun i => match i with 2%nat => v | 3%nat => (9/2)%R | 5%nat => (9/2)%R | _ => 0%R end) R WK _ _ 2 _).
    - eapply physical_a; [exact I|simpl; auto|]. cbn. repeat split; try lra; discriminate.
    - destruct (cost_a s w [] (vget y) I) as (C1 & C2 & _); [simpl; auto|]. rewrite C1, C2. clear C1 C2.
      match goal with |- (soft_cost _ _ ?f + _ * _ <= _)%R => destruct (cost_a s w [] f I) as (C1 & C2 & _); [simpl; auto|]; rewrite C1, C2; clear C1 C2 end.
      rewrite Y0, Y1. cbn -[reg8]. replace (vget y 5) with (9 - vget y 3)%R by lra.
      apply least; lra.
    - destruct I as (_ & _ & E3 & _). rewrite E3. lia. }
  split; [exact E|]. destruct (cost_a s w [] (vget y) I) as (_ & _ & C3); [simpl; auto|]. rewrite C3, Y0, Y1, E. unfold v. field. lra.
Qed.
Lemma same_ab fl s q : in_a s 1 fl -> in_b q 1 fl -> same_things s q /\ forall n, soft_weight s n = soft_weight q n.
Proof.
  intros I J. assert (W : forall n, soft_weight s n = soft_weight q n) by (intros n; rewrite (weight_a _ _ _ n I), (weight_b _ _ _ n J); reflexivity). split; [|exact W]. clear W.
  destruct I as (A1 & A2 & A3 & A4 & A5 & A6 & A7 & A8 & A9 & A10 & _). destruct J as (B1 & B2 & B3 & B4 & B5 & B6 & B7 & B8 & B9 & B10 & _).
  constructor; rewrite ?A1, ?A2, ?A4, ?A5, ?A6, ?A7, ?A8, ?A9, ?B1, ?B2, ?B4, ?B5, ?B6, ?B7, ?B8, ?B9; try reflexivity.
  - apply perm_swap.
  - assert (HA : forall c, In c ca -> hard_motion s c). { intros c [<-|[<-|[]]]; (eapply hard_in; [exact A10|]); unfold cl_name, cobj_at; rewrite A5; cbn; auto. }
    assert (HB : forall c, In c cb -> hard_motion q c). { intros c [<-|[<-|[]]]; (eapply hard_in; [exact B10|]); unfold cl_name, cobj_at; rewrite B5; cbn; auto 8. }
    intros c d Hc Hd _. split; auto.
Qed.
(** The weight of the soft task is raised from 1 to 4. *)
Lemma okrun_app dbg (st : fstate Rnum -> fop Rnum -> outcome (fstate Rnum) (fout Rnum)) l l' : forall s, okrun dbg st s (l ++ l') = match okrun dbg st s l with Some u => okrun dbg st u l' | None => None end.
Proof. induction l as [|o l IH]; intros s; [reflexivity|]. simpl. destruct (_ && _); [|reflexivity]. destruct (after (st s o)); [apply IH|reflexivity]. Qed.
Definition said_true (r : outcome (fstate Rnum) (fout Rnum)) : bool := match r with Ret _ (OutBool b) => b | _ => false end.
Lemma more_step dbg : step dbg (built dbg two_a) (OUpdTask "com" (4%R : Rnum)) = Ret (built dbg (two_a ++ more)) (OutBool true) /\ f_trans (built dbg two_a) = [].
Proof.
  assert (S : okrun dbg (plain_step dbg) (@s0 Rnum) two_a = Some (built dbg two_a)) by (apply built_ok; destruct dbg; vm_compute; reflexivity).
  assert (S' : okrun dbg (plain_step dbg) (@s0 Rnum) (two_a ++ more) = Some (built dbg (two_a ++ more))) by (apply built_ok; destruct dbg; vm_compute; reflexivity).
  rewrite okrun_app, S in S'. assert (T : said_true (step dbg (built dbg two_a) (OUpdTask "com" (4%R : Rnum))) = true) by (destruct dbg; vm_compute; reflexivity).
  assert (F : f_trans (built dbg two_a) = []) by (destruct dbg; vm_compute; reflexivity). split; [|exact F]. clear F. revert S'. generalize dependent (built dbg (two_a ++ more)). generalize dependent (built dbg two_a). clear.
  intros u _ T v S'. cbn [more okrun names_okb op_okb] in S'. rewrite <- plain_step_ok in S' by exact I.
  destruct (_ && _); [|discriminate]. destruct (step dbg u (OUpdTask "com" (4%R : Rnum))) as [u' [| b |]| |]; try discriminate. cbn in T. subst b. cbn in S'. congruence.
Qed.

(** ** The cases *)
Lemma weight_case dbg : exists y z, plan_of dbg two_a y /\ plan_of dbg (two_a ++ more) z /\ same_things (go env2 dbg two_a) (go env2 dbg (two_a ++ more)) /\ forces_placed (go env2 dbg two_a) env2 /\
  (forall m, m <> "com" -> soft_weight (go env2 dbg two_a) m = soft_weight (go env2 dbg (two_a ++ more)) m) /\ (soft_weight (go env2 dbg two_a) "com" = 1 /\ soft_weight (go env2 dbg (two_a ++ more)) "com" = 4)%R /\
  weights_ok (go env2 dbg two_a) /\ weights_ok (go env2 dbg (two_a ++ more)) /\
  (0 < error_of "com" (go env2 dbg (two_a ++ more)) env2 (vget z) < error_of "com" (go env2 dbg two_a) env2 (vget y))%R.
Proof.
  destruct (plans dbg) as ([y Py] & [z Pz] & _). exists y, z. destruct (lists_a dbg) as (A1 & A2 & _). destruct (more_step dbg) as [U T].
  destruct (four_scene dbg two_a) as (Ra & Ga & Sa); [simpl; auto|]. destruct (four_scene dbg (two_a ++ more)) as (Rb & Gb & Sb); [simpl; auto|].
  assert (Rg : reach (step dbg) (good dbg) (init 3 2 (mzero 3 3 : mat Rnum) (vzero 3)) (built dbg two_a)).
  { clear - Ra. change (init 3 2 (mzero 3 3 : mat Rnum) (vzero 3)) with (@s0 Rnum). induction Ra as [|u o v Hr IH Hp Ha]; [constructor|]. eapply reach_step; [exact IH|apply Hp|exact Ha]. }
  destruct (update_effect dbg 3 2 (mzero 3 3) (vzero 3) _ _ "com" 4 (@t0 Rnum) env2 _ _ Rg ltac:(repeat split) T U Sa Sb) as (E1 & E2 & E3).
  destruct (value_a _ _ _ _ Py A1 ltac:(lra)) as [_ V1]. destruct (value_a _ _ _ _ Pz A2 ltac:(lra)) as [_ V2].
  split; [exact Py|]. split; [exact Pz|]. split; [exact E1|]. split; [destruct A1 as (_ & _ & _ & _ & _ & _ & _ & E8 & _); intros t Ht; rewrite E8 in Ht; contradiction|].
  split; [exact E3|]. split; [rewrite (weight_a _ _ _ "com" A1), (weight_a _ _ _ "com" A2); cbn; lra|]. split; [apply (weights_a _ _ _ A1); lra|]. split; [apply (weights_a _ _ _ A2); lra|].
  rewrite V1, V2. unfold reg8. split.
  - apply Rmult_lt_0_compat; lra.
  - apply Rmult_le_0_lt_compat; lra.
Qed.
Lemma order_case dbg : exists y z, plan_of dbg (two_a ++ force1) y /\ plan_of dbg (two_b ++ force1) z /\ same_things (go env2 dbg (two_a ++ force1)) (go env2 dbg (two_b ++ force1)) /\
  forces_placed (go env2 dbg (two_a ++ force1)) env2 /\ weights_ok (go env2 dbg (two_a ++ force1)) /\ (forall n, soft_weight (go env2 dbg (two_a ++ force1)) n = soft_weight (go env2 dbg (two_b ++ force1)) n) /\
  (exists t, In t (f_forces (go env2 dbg (two_a ++ force1)))) /\ map cl_obj (f_contacts (go env2 dbg (two_a ++ force1))) <> map cl_obj (f_contacts (go env2 dbg (two_b ++ force1))).
Proof.
  destruct (plans dbg) as (_ & _ & [y Py] & [z Pz] & _). exists y, z. destruct (lists_a dbg) as (_ & _ & A & _). destruct (lists_b dbg) as (B & _).
  destruct (same_ab _ _ _ A B) as [S W]. split; [exact Py|]. split; [exact Pz|]. split; [exact S|].
  assert (WK := proj2 (weights_a _ _ _ A ltac:(lra))). destruct A as (_ & _ & _ & A4 & A5 & _ & _ & A8 & _). destruct B as (_ & _ & _ & B4 & _).
  split; [|split; [exact WK|split; [exact W|split]]].
  - intros t Ht. rewrite A8 in Ht. destruct Ht as [<-|[]]. split; [discriminate|]. exists (mkCl 0 0 1 2 3). rewrite A4. split; [left; reflexivity|]. unfold cl_name, cobj_at. rewrite A5. reflexivity.
  - rewrite A8. eexists. left. reflexivity.
  - rewrite A4, B4. discriminate.
Qed.
(** A hard force task without associated contact acts on the force variables by their place: the
    order in which the contacts were added decides whether it concerns the hand or the foot. *)
Lemma order_matters dbg : exists y z, plan_of dbg (two_a ++ force3) y /\ plan_of dbg (two_b ++ force3) z /\ same_things (go env2 dbg (two_a ++ force3)) (go env2 dbg (two_b ++ force3)) /\
  weights_ok (go env2 dbg (two_a ++ force3)) /\ (forall n, soft_weight (go env2 dbg (two_a ++ force3)) n = soft_weight (go env2 dbg (two_b ++ force3)) n) /\
  ~ same_motion (go env2 dbg (two_a ++ force3)) (go env2 dbg (two_b ++ force3)) (vget y) (vget z).
Proof.
  destruct (plans dbg) as (_ & _ & _ & _ & [y Py] & [z Pz]). exists y, z. destruct (lists_a dbg) as (_ & _ & _ & A). destruct (lists_b dbg) as (_ & B).
  destruct (same_ab _ _ _ A B) as [S W]. assert (WK := proj2 (weights_a _ _ _ A ltac:(lra))). do 5 (split; [assumption|]). intros M.
  destruct (plan_best _ _ _ _ _ _ _ _ _ _ Py) as [Ph Bst]. destruct (plan_best _ _ _ _ _ _ _ _ _ _ Pz) as [Phz _].
  destruct (motion_a _ _ _ _ A Ph) as (Y0 & Y1 & Y3). assert (Y5 := force_a _ _ _ A Ph). assert (Z5 := force_b _ _ _ B Phz).
  assert (Y4 : vget y 4 = 2%R).
  { destruct M as [_ M]. destruct A as (A1 & _ & _ & A4 & A5 & _). destruct B as (B1 & _ & _ & B4 & _). specialize (M (mkCl 0 0 1 2 3) (mkCl 0 1 6 7 8)). rewrite A4, B4 in M.
    specialize (M (or_introl eq_refl) (or_intror (or_introl eq_refl)) eq_refl 1). unfold cl_nforce, cobj_at, force_of in M. rewrite A5, A1, B1 in M. cbn in M. specialize (M ltac:(lia)). lra. }
  set (x := fun i => match i with 3%nat => 7%R | 5%nat => 2%R | _ => 0%R end).
  assert (R := reg8_pos). specialize (Bst (fun i => if i =? 2 then vget y 2 else x i)).
  assert (Px' : physical (go env2 dbg (two_a ++ force3)) env2 (fun i => if i =? 2 then vget y 2 else x i)).
  { eapply physical_a; [exact A|simpl; auto|]. cbn. assert (T := ph_atask _ _ _ Ph (mkTl 2 "tau" 0 8)). assert (T2 := torque_a _ _ _ (vget y) 2 A ltac:(lia)).
    destruct A as (A1 & A2 & _ & _ & _ & _ & _ & _ & A9 & _). rewrite A9 in T. specialize (T (or_introl eq_refl) eq_refl). unfold sat in T. cbn [env2 one_env e_task tl_task Nat.eqb c_kind c_lb c_ub vlen vget] in T. specialize (T 1 ltac:(lia)). unfold lhs in T. cbn [c_kind] in T. rewrite A2 in T.
    change (1 + 1) with 2 in T. rewrite T2 in T. cbn in T. rewrite !Q2R_val in T. cbn in T. repeat split; try lra; discriminate. }
  specialize (Bst Px'). destruct (cost_a _ _ _ (vget y) A) as (C1 & C2 & _); [simpl; auto|]. rewrite C1, C2 in Bst. clear C1 C2.
  match type of Bst with context [soft_cost _ _ ?f] => destruct (cost_a _ _ _ f A) as (C1 & C2 & _); [simpl; auto|]; rewrite C1, C2 in Bst; clear C1 C2 end.
  cbn -[reg8] in Bst. rewrite Y0, Y1, Y4, Y5 in Bst. replace (vget y 3) with 7%R in Bst by lra. lra.
Qed.
Theorem order_refuted : ~ (forall dbg nv na (M0 : mat Rnum) H0 asc e s q r y z,
  planned dbg nv na M0 H0 asc e s r y -> planned dbg nv na M0 H0 asc e q r z -> same_things s q -> (0 < r)%R -> weights_ok s -> (forall n, soft_weight s n = soft_weight q n) ->
  same_motion s q (vget y) (vget z)).
Proof. intros H. destruct (order_matters false) as (y & z & P1 & P2 & S & W & E & N). exact (N (H _ _ _ _ _ _ _ _ _ _ _ _ P1 P2 S reg8_pos W E)). Qed.
(** updateTaskWeight does not check the weight. *)
Lemma bad_weights (s : fstate Rnum) : map fst (nth 1 (hqp s) []) = [(1%R : Rnum); (1%R : Rnum); ((-1)%R : Rnum)] -> ~ weights_ok s.
Proof.
  intros E W. assert (I : In ((-1)%R : Rnum) [(1%R : Rnum); (1%R : Rnum); ((-1)%R : Rnum)]) by (simpl; auto). rewrite <- E in I. apply in_map_iff in I.
  destruct I as ([w o] & E1 & Hen). specialize (W _ Hen). cbn in E1, W. subst w. lra.
Qed.
Lemma said_end dbg (s : fstate Rnum) o : said_true (step dbg s o) = true -> step dbg s o = Ret (end_of dbg s o) (OutBool true).
Proof. unfold end_of. destruct (step dbg s o) as [u' [| b |]| |]; cbn; try discriminate. intros ->. reflexivity. Qed.
Lemma negative_weight dbg : exists s, step dbg (built dbg two_a) (OUpdTask "com" ((-1)%R : Rnum)) = Ret s (OutBool true) /\ ~ weights_ok s.
Proof.
  eexists. split; [apply said_end; destruct dbg; vm_compute; reflexivity|]. apply bad_weights. destruct dbg; vm_compute; reflexivity.
Qed.
