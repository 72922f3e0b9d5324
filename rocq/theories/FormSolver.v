(** The formulation together with a solver: what solving the HQP data of
    computeProblemData gives. *)
From Coq Require Import String List Arith Bool ZArith Reals Lia Lra.
From Verif Require Import Scalar Outcome Linalg Constraint Formulation ListUtil FormSpec FormInv FormInvB FormOps FormSafe FormSafe2 FormDataSpec FormPhysSpec FormLevels FormMain.
From Verif Require Solvers SolverSpec SolverSizes SolverSem SolverCost SolverMain SolverRefute SolverExist.
From Verif Require Import RSum.
Import ListNotations.
Open Scope list_scope.
Open Scope nat_scope.
Import Solvers SolverSpec SolverMain.
Local Notation fstep := Formulation.step.

(** The shared constraints dereferenced: what HQPData holds. *)
Definition problem_of {K : num} (s : fstate K) (P : hqpdata K) : Prop :=
  hqp s = map (map (fun wc => (fst wc, Some (snd wc)))) P.

Section Gen.
Context {K : num}.
Implicit Types (s : fstate K) (P : hqpdata K) (q : sst K).

Lemma undot (l : list (list (K * option (constr K)))) :
  (forall lvl e, In lvl l -> In e lvl -> exists c, snd e = Some c) ->
  exists P : hqpdata K, l = map (map (fun wc => (fst wc, Some (snd wc)))) P.
Proof.
  induction l as [|lvl l IH]; intros H; [exists []; reflexivity|].
  destruct IH as [P ->]; [intros l' e Hl He; apply (H l' e); [right|]; assumption|].
  assert (X : exists L : level K, lvl = map (fun wc => (fst wc, Some (snd wc))) L).
  { assert (H' : forall e, In e lvl -> exists c, snd e = Some c) by (intros e He; apply (H lvl e); [left; reflexivity|exact He]).
    clear H. induction lvl as [|[w o] lvl IH]; [exists []; reflexivity|].
    destruct IH as [L ->]; [intros e He; apply H'; right; exact He|].
    destruct (H' (w, o)) as [c Hc]; [left; reflexivity|]. cbn in Hc. subst o. exists ((w, c) :: L). reflexivity. }
  destruct X as [L ->]. exists (L :: P). reflexivity.
Qed.
Lemma problem_in s P lvl w c : problem_of s P -> In lvl P -> In (w, c) lvl ->
  exists l e, In l (hqp s) /\ In e l /\ e = (w, Some c).
Proof.
  intros E Hl Hw. exists (map (fun wc => (fst wc, Some (snd wc))) lvl), (w, Some c). rewrite E. split; [|split; [|reflexivity]].
  - apply in_map. exact Hl.
  - apply in_map_iff. exists (w, c). auto.
Qed.
Lemma heap_in s lvl e c : In lvl (hqp s) -> In e lvl -> snd e = Some c -> In c (f_heap s).
Proof.
  intros Hl He Hc. unfold hqp in Hl. apply in_map_iff in Hl as (l & <- & _). apply in_map_iff in He as (e0 & <- & _).
  cbn in Hc. eapply nth_error_In; exact Hc.
Qed.

(** Shape of the problem of every state reached by well-formed calls. *)
Theorem problem_shape dbg nv na (M0 : mat K) H0 s : robot_ok nv M0 H0 -> reach (fstep dbg) (good dbg) (init nv na M0 H0) s ->
  exists cl0 cl1, problem_of s [cl0; cl1] /\ cl0 <> [] /\ lwf (nVar s) cl0 /\ lwf (nVar s) cl1 /\
    ~ has_bound cl0 /\ ~ has_bound cl1.
Proof.
  intros (R1 & R2 & R3) Hr. destruct (safe_reach dbg nv na M0 H0 s R1 R2 R3 Hr) as (A & B & [S _]).
  destruct (undot (hqp s)) as [P E]. { intros lvl e Hl He. eapply no_dangling; eauto. }
  assert (L : List.length (f_hqp s) = 2) by exact (two_levels dbg _ nv na M0 H0 s Hr).
  assert (LP : List.length P = 2).
  { rewrite <- L. apply (f_equal (@List.length _)) in E. unfold hqp in E. rewrite !map_length in E. auto. }
  destruct P as [|cl0 [|cl1 [|]]]; try discriminate. exists cl0, cl1.
  assert (Cell : forall lvl w c, In lvl [cl0; cl1] -> In (w, c) lvl -> cwf (nVar s) c /\ c_kind c <> CBound).
  { intros lvl w c Hl Hw. destruct (problem_in s _ lvl w c E Hl Hw) as (l & e & Hl' & He & ->).
    assert (Hc := heap_in s l _ c Hl' He eq_refl).
    assert (Cc := columns s A l _ c Hl' He eq_refl).
    assert (Sz := is_cells _ S). rewrite Forall_forall in Sz. specialize (Sz c Hc). 
    assert (Nb := heap_nobound s (ia_kind _ A)). rewrite Forall_forall in Nb. specialize (Nb c Hc).
    split; [|exact Nb]. unfold nobound in Nb. unfold cwf. assert (Sz2 : crows c = Some (mrows (c_mat c))) by exact Sz. clear Sz. unfold crows in Sz2.
    destruct (c_kind c).
    - destruct (Nat.eqb_spec (mrows (c_mat c)) (vlen (c_vec c))); [auto|discriminate].
    - destruct (Nat.eqb_spec (mrows (c_mat c)) (vlen (c_lb c))); [|discriminate].
      destruct (Nat.eqb_spec (mrows (c_mat c)) (vlen (c_ub c))); [auto|discriminate].
    - congruence. }
  split; [exact E|]. split.
  - intros ->. destruct (b_base _ B) as (l & Hl & Hin). unfold problem_of, hqp in E.
    destruct (f_hqp s) as [|l0 ?]; [discriminate|]. cbn in Hl. injection Hl as ->. cbn [map] in E.
    injection E as E _. destruct l; [destruct Hin|discriminate].
  - split; [intros w c Hw; apply (Cell cl0 w c); cbn; auto|].
    split; [intros w c Hw; apply (Cell cl1 w c); cbn; auto|].
    split; intros (w & c & Hw & Hk); [apply (proj2 (Cell cl0 w c (or_introl eq_refl) Hw) Hk)|apply (proj2 (Cell cl1 w c (or_intror (or_introl eq_refl)) Hw) Hk)].
Qed.
Lemma problem_unique s P P' : problem_of s P -> problem_of s P' -> P = P'.
Proof.
  unfold problem_of. intros -> E. revert P' E. induction P as [|l P IH]; intros [|l' P'] E; try discriminate; [reflexivity|].
  cbn [map] in E. injection E as El E. f_equal; [|apply IH; exact E].
  clear -El. revert l' El. induction l as [|[w c] l IH]; intros [|[w' c'] l'] E; try discriminate; [reflexivity|].
  cbn [map fst snd] in E. injection E as -> -> E. f_equal. apply IH; exact E.
Qed.

(** Every back-end accepts the problem as long as the soft tasks are equalities. *)
Theorem formulation_accepted dbg nv na (M0 : mat K) H0 s P b dbg' jk q ans x :
  robot_ok nv M0 H0 -> reach (fstep dbg) (good dbg) (init nv na M0 H0) s -> problem_of s P ->
  SolverSizes.solver_state b dbg' q -> fits b (nVar s) P ->
  (forall w c, In (w, c) (nth 1 P []) -> c_kind c = CEq) ->
  exists q' r, solve b dbg' jk q P ans x = Ret q' r.
Proof.
  intros R0 Hr E S F Hk. destruct (problem_shape dbg nv na M0 H0 s R0 Hr) as (cl0 & cl1 & E' & Hne & W0 & W1 & B0 & B1).
  rewrite (problem_unique s P _ E E') in *. cbn [nth] in Hk.
  apply (accept b dbg' jk q (nVar s)).
  - split; [exact S|]. split; [exact F|]. intros _ (c0 & r & Ec & HB). injection Ec as <- _. contradiction.
  - exists cl0, cl1. auto 10.
Qed.
Theorem formulation_rejected dbg nv na (M0 : mat K) H0 s P b dbg' jk q ans x :
  robot_ok nv M0 H0 -> reach (fstep dbg) (good dbg) (init nv na M0 H0) s -> problem_of s P ->
  SolverSizes.solver_state b dbg' q -> fits b (nVar s) P ->
  (exists w c, In (w, c) (nth 1 P []) /\ c_kind c <> CEq) ->
  exists q', solve b dbg' jk q P ans x = Exc q'.
Proof.
  intros R0 Hr E S F Hk. destruct (problem_shape dbg nv na M0 H0 s R0 Hr) as (cl0 & cl1 & E' & Hne & W0 & W1 & B0 & B1).
  rewrite (problem_unique s P _ E E') in *. cbn [nth] in Hk.
  apply (reject_cost b dbg' jk q (nVar s)); auto.
  split; [exact S|]. split; [exact F|]. intros _ (c0 & r & Ec & HB). injection Ec as <- _. contradiction.
Qed.
End Gen.

(** Contract of the external solver: a reported optimum is feasible and minimal for
    the QP it was given. *)
Definition exact_answer (b : backend) (q : sst Rnum) (ans : code b) (x : vec Rnum) : Prop :=
  optimum b ans -> qp_feasible b q (vget x) /\ forall z, qp_feasible b q z -> (qp_cost q (vget x) <= qp_cost q z)%R.

Lemma hard_same (s : fstate Rnum) cl0 r x : problem_of s (cl0 :: r) -> hard_ok cl0 x <-> hard_feasible s x.
Proof.
  intros E. unfold hard_ok, hard_feasible. rewrite E. cbn [map nth]. split.
  - intros H en c Hin Hc. apply in_map_iff in Hin as ([w c'] & <- & Hin). cbn in Hc. injection Hc as ->. eapply H; exact Hin.
  - intros H w c Hin. apply (H (w, Some c)); [|reflexivity]. apply in_map_iff. exists (w, c). auto.
Qed.

(** Solving the computed problem with any back-end. *)
Theorem solve_physical dbg nv na (M0 : mat Rnum) H0 asc s t e s' cl0 cl1 b dbg' jk q ans x q' y :
  robot_ok nv M0 H0 -> reach (fstep dbg) (assoc_good dbg asc) (init nv na M0 H0) s ->
  assoc_good dbg asc s (OCompute t e) -> fstep dbg s (OCompute t e) = Ret s' OutUnit ->
  problem_of s' [cl0; cl1] -> SolverSizes.solver_state b dbg' q -> fits b (nVar s') [cl0; cl1] ->
  handled b ans -> solve b dbg' jk q [cl0; cl1] ans x = Ret q' (St_optimal, y) -> exact_answer b q' ans x ->
  physical s' e (vget y) /\
  (forall z, physical s' e z ->
     (least_squares (solve_reg b) (nVar s') cl1 (vget y) <= least_squares (solve_reg b) (nVar s') cl1 z)%R).
Proof.
  intros R0 Hr Ho Hs E S F Hh Hv C.
  assert (Hr' : reach (fstep dbg) (good dbg) (init nv na M0 H0) s').
  { eapply reach_step; [|apply Ho|rewrite Hs; reflexivity]. clear - Hr.
    induction Hr as [|u o v Hr IH Hp Ha]; [constructor|]. eapply reach_step; [exact IH|apply Hp|exact Ha]. }
  destruct (problem_shape dbg nv na M0 H0 s' R0 Hr') as (c0 & c1 & E' & Hne & W0 & W1 & B0 & B1).
  pose proof (problem_unique s' _ _ E E') as EP. injection EP as <- <-.
  assert (N : q_n q' = nVar s').
  { apply solve_prepare in Hv as (q1 & Ep & -> & _). cbn [w_out q_n].
    destruct (SolverSizes.level0_ok b dbg' jk q (nVar s') cl0 cl1 (SolverSizes.state_sized _ _ _ S) Hne W0 F) as (u & Eu & _ & Nu).
    { intros _ HB. contradiction. }
    cbn [prepare List.length Nat.ltb Nat.leb] in Ep. rewrite Eu in Ep.
    pose proof (SolverSizes.level1_dims b (default_flag b) u cl1) as D. rewrite Ep in D. destruct D as [_ D]. rewrite D. exact Nu. }
  pose proof (solve_status _ _ _ _ _ _ _ _ _ _ Hv) as (St & _ & Yx & _).
  destruct (St Hh) as [Opt _]. assert (O : optimum b ans) by (apply Opt; reflexivity).
  rewrite (Yx O). destruct (C O) as [Fx Mx].
  assert (FF : fits b (q_n q') [cl0; cl1]) by (rewrite N; exact F).
  assert (G : forall z, qp_feasible b q' z <-> physical s' e z).
  { intros z. rewrite (solve_feasible _ _ _ _ _ _ _ _ _ _ S FF Hv z), (hard_same s' cl0 [cl1] z E).
    rewrite (feasible_physical dbg nv na M0 H0 asc s t e s' R0 Hr Ho Hs z).
    split; [intros [H _]; exact H|]. intros H; split; [exact H|]. intros _ HB. contradiction. }
  split; [apply G; exact Fx|].
  assert (Mi : forall z, qp_feasible b q' z -> (qp_cost q' (vget x) <= qp_cost q' z)%R) by exact Mx.
  rewrite <- N. apply (solve_minimisers _ _ _ _ _ _ _ _ _ _ S Hv (physical s' e)).
  intros z Hz. apply Mi. apply G. exact Hz.
Qed.

(** With a regularised back-end and non-negative weights, as soon as some physical
    point exists the contract can be met, so solving gives the optimum. *)
Theorem solution_exists dbg nv na (M0 : mat Rnum) H0 asc s t e s' cl0 cl1 b dbg' jk q ans :
  robot_ok nv M0 H0 -> reach (fstep dbg) (assoc_good dbg asc) (init nv na M0 H0) s ->
  assoc_good dbg asc s (OCompute t e) -> fstep dbg s (OCompute t e) = Ret s' OutUnit ->
  problem_of s' [cl0; cl1] -> SolverSizes.solver_state b dbg' q -> fits b (nVar s') [cl0; cl1] ->
  (forall w c, In (w, c) cl1 -> c_kind c = CEq /\ (0 <= (w : R))%R) -> (exists z, physical s' e z) ->
  regularised b -> handled b ans -> optimum b ans ->
  exists x q', vlen x = nVar s' /\ solve b dbg' jk q [cl0; cl1] ans x = Ret q' (St_optimal, x) /\ exact_answer b q' ans x.
Proof.
  intros R0 Hr Ho Hs E S F Hk [z0 Hz] Rb Hh Op.
  assert (Hr' : reach (fstep dbg) (good dbg) (init nv na M0 H0) s').
  { eapply reach_step; [|apply Ho|rewrite Hs; reflexivity]. clear - Hr.
    induction Hr as [|u o v Hr IH Hp Ha]; [constructor|]. eapply reach_step; [exact IH|apply Hp|exact Ha]. }
  destruct (problem_shape dbg nv na M0 H0 s' R0 Hr') as (c0 & c1 & E' & Hne & W0 & W1 & B0 & B1).
  pose proof (problem_unique s' _ _ E E') as EP. injection EP as <- <-.
  assert (U : usable b dbg' (nVar s') [cl0; cl1] q).
  { split; [exact S|]. split; [exact F|]. intros _ (c0 & r & Ec & HB). injection Ec as <- _. contradiction. }
  assert (W : pwf (nVar s') [cl0; cl1]).
  { exists cl0, cl1. split; [reflexivity|]. split; [exact Hne|]. split; [exact W0|]. split; [exact W1|].
    intros w c Hin. apply (Hk w c Hin). }
  destruct (accept b dbg' jk q (nVar s') _ ans (vzero 0) U W) as (q1 & r1 & E1).
  assert (N := SolverRefute.solve_n _ _ _ _ _ _ _ _ _ _ U W E1).
  assert (FF : fits b (q_n q1) [cl0; cl1]) by (rewrite N; exact F).
  destruct (SolverExist.solve_exists b dbg' jk q cl0 cl1 ans (vzero 0) q1 r1 Rb S FF E1) as (x & Fx & Mx).
  { intros w c Hin. apply (Hk w c Hin). }
  { exists z0. apply (solve_feasible _ _ _ _ _ _ _ _ _ _ S FF E1 z0). split.
    - apply (hard_same s' cl0 [cl1] z0 E). apply (feasible_physical dbg nv na M0 H0 asc s t e s' R0 Hr Ho Hs z0). exact Hz.
    - intros _ HB. contradiction. }
  set (xv := @mkVec Rnum (nVar s') x).
  apply solve_prepare in E1 as (u & Ep & -> & _).
  exists xv, (w_out u (new_x b (q_x u) xv ans) (new_status b (q_status u) ans)). split; [reflexivity|]. split.
  - unfold solve. rewrite Ep. cbn [w_out q_status q_x]. f_equal.
    rewrite (x_optimal b ans (q_x u) xv Op). assert (T := proj2 (status_optimal b ans (q_status u) Hh) Op). rewrite T. reflexivity.
  - intros _. split.
    + change (vget xv) with x. destruct b; exact Fx.
    + change (vget xv) with x. intros z Fz. apply Mx. destruct b; exact Fz.
Qed.

(** A concrete problem: the scene of FormWitness without the force task. *)
From Verif Require Import FormCheck FormDecode FormTrans FormWitness.
Open Scope string_scope.
Open Scope list_scope.
Open Scope nat_scope.
Section Scene.
Context {K : num}.
Definition plan : list (fop K) :=
  [ONewContact foot; ONewContact hand; OAddContact 0 n1 n1 0; OAddMotion 0 "com" CEq 1 n1 1 n0;
   OAddAct 2 "tau" CBound 2 n1 0 n0; OAddMeas 0 "push"].
Lemma plan_simple : @checks_pass K -> Forall (@simple K) plan.
Proof. intros Z. assert (A := args_pass Z). repeat constructor; simpl; auto. Qed.
Lemma plan_scene dbg : @checks_pass K -> reach (fstep dbg) (assoc_good dbg asc) (@s0 K) (@built K dbg plan) /\
  assoc_good dbg asc (@built K dbg plan) (OCompute t0 one_env) /\
  fstep dbg (@built K dbg plan) (OCompute t0 one_env) = Ret (end_of dbg (@built K dbg plan) (OCompute t0 one_env)) OutUnit.
Proof. intros Z. apply scene; [apply plan_simple; exact Z| | |]; destruct dbg; vm_compute; reflexivity. Qed.
End Scene.
Local Notation planR dbg := (end_of dbg (@built Rnum dbg plan) (OCompute (@t0 Rnum) (@one_env Rnum))).
Lemma plan_lists dbg : f_nv (planR dbg) = 3 /\ f_nu (planR dbg) = 1 /\ f_contacts (planR dbg) = [mkCl 0 0 1 2 3] /\
  f_objs (planR dbg) = [foot; hand] /\ f_meas (planR dbg) = [(0, "push")] /\
  f_motions (planR dbg) = [mkTl 0 "com" 1 4] /\ f_forces (planR dbg) = [] /\
  f_acts (planR dbg) = [mkTl 2 "tau" 0 5].
Proof. destruct dbg; repeat split; vm_compute; reflexivity. Qed.
Lemma plan_physical dbg : physical (planR dbg) one_env stand.
Proof.
  destruct (plan_lists dbg) as (E1 & E2 & E3 & E4 & E5 & E6 & E7 & E8).
  assert (T : forall i, i < 3 -> needed_torque (planR dbg) one_env stand i = (if i =? 0 then 0 else 2)%R).
  { intros i Hi. unfold needed_torque, meas_torque, contact_torque. rewrite E1, E3, E5. unfold lsum, cl_nforce, cobj_at.
    rewrite E4. unfold force_of. rewrite E1.
    destruct i as [|[|[|i]]]; [| | |lia]; cbn; rewrite ?Q2R_val; unfold stand; cbn; try lra. }
  constructor; rewrite ?E1, ?E2, ?E3, ?E4, ?E5, ?E6, ?E7, ?E8.
  - intros i Hi. rewrite T by lia. destruct i; [reflexivity|lia].
  - intros c [<-|[]] _ i Hi. cbn in Hi. destruct i as [|[|i]]; [| |lia]; cbn; unfold stand; cbn; lra.
  - intros c o [<-|[]] Ho. cbn in Ho. injection Ho as <-. cbn [cl_obj e_cforce one_env Nat.eqb].
    intros i Hi. cbn in Hi. unfold force_of. rewrite E1.
    destruct i as [|[|[|i]]]; [| | |lia]; cbn; rewrite ?Q2R_val; unfold stand; cbn; lra.
  - intros t [<-|[]] H; discriminate.
  - intros t [].
  - intros t [<-|[]] _. unfold sat. cbn [one_env e_task tl_task c_kind c_lb vlen].
    intros i Hi. unfold lhs. cbn [c_kind c_ub vget]. rewrite T by lia. unfold FormWitness.q. simpl. rewrite !Q2R_val.
    destruct i as [|[|i]]; [| |lia]; simpl; lra.
Qed.
Lemma plan_level1 dbg : forall e, In e (nth 1 (hqp (planR dbg)) []) -> exists c, snd e = Some c /\ c_kind c = CEq /\ (0 <= (fst e : R))%R.
Proof.
  assert (A : map (fun e => (fst e, option_map c_kind (snd e))) (nth 1 (hqp (planR dbg)) []) = [((1%R : Rnum), Some CEq); ((1%R : Rnum), Some CEq)]).
  { destruct dbg; vm_compute; reflexivity. }
  intros [w o] He. apply (in_map (fun e => (fst e, option_map c_kind (snd e)))) in He. rewrite A in He. cbn [fst snd] in *.
  destruct o as [c|]; cbn [option_map] in He; [|destruct He as [He|[He|[]]]; discriminate].
  exists c. split; [reflexivity|]. destruct He as [He|[He|[]]]; injection He as H1 H2; (split; [congruence|rewrite <- H1; lra]).
Qed.
Lemma plan_problem dbg : exists cl0 cl1, problem_of (planR dbg) [cl0; cl1] /\
  forall w c, In (w, c) cl1 -> c_kind c = CEq /\ (0 <= (w : R))%R.
Proof.
  destruct (plan_scene (K:=Rnum) dbg R_checks) as (A & B & C).
  destruct (problem_shape dbg 3 2 (mzero 3 3 : mat Rnum) (vzero 3) (planR dbg)) as (cl0 & cl1 & E & _).
  - repeat split.
  - eapply reach_step; [|apply B|rewrite C; reflexivity]. clear - A.
    induction A as [|u o v Hr IH Hp Ha]; [constructor|]. eapply reach_step; [exact IH|apply Hp|exact Ha].
  - exists cl0, cl1. split; [exact E|]. intros w c Hin.
    destruct (plan_level1 dbg (w, Some c)) as (c' & H1 & H2).
    + rewrite E. cbn [map nth]. apply in_map_iff. exists (w, c). auto.
    + cbn in H1. injection H1 as <-. exact H2.
Qed.
