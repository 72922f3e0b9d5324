(** The program of exercizes/ex_0_ur5_joint_space_control.py, from the construction of the
    formulation to the loop: it never stops, and every joint follows its reference. *)
From Coq Require Import String List Arith Bool ZArith Reals Lia Lra.
From Verif Require Import Scalar Outcome Linalg Constraint Formulation ListUtil FormSpec FormDataSpec FormPhysSpec RSum FormInv FormInvB FormSafe FormSafe2 FormDecode FormHist FormPhys FormLevels FormMain FormSolver
  Masks MaskReal JointBounds JointTask JointTasks JointTasksP JointTasksR SoftTasks SoftPlan SoftOrder LinearLoop ClosedLoop SampledTrack JointTrack.
From Verif Require Solvers SolverSpec SolverSizes SolverMain SolverRefute.
Import ListNotations.
Open Scope string_scope.
Open Scope list_scope.
Open Scope nat_scope.

(** * The program *)
(** HQPData as the solver receives it, from the constraints the formulation points to. *)
Fixpoint fetch_level {K : num} (l : list (K * option (constr K))) : option (Solvers.level K) :=
  match l with
  | [] => Some []
  | (w, Some c) :: l' => match fetch_level l' with Some r => Some ((w, c) :: r) | None => None end
  | (_, None) :: _ => None
  end.
Fixpoint fetch {K : num} (l : list (list (K * option (constr K)))) : option (Solvers.hqpdata K) :=
  match l with
  | [] => Some []
  | a :: l' => match fetch_level a, fetch l' with Some r, Some rs => Some (r :: rs) | _, _ => None end
  end.
(** Variables of the program: t, formulation, postureTask, solver, q[:, i], v[:, i] and the last
    column of dv. *)
Record world := mkWorld { w_time : R; w_form : fstate Rnum; w_task : post Rnum; w_solver : Solvers.sst Rnum; w_q : vec Rnum; w_v : vec Rnum; w_dv : vec Rnum }.
Definition task_name : string := "task-posture".
Section Program.
(** Robot: difference, integrate, neutral, mass and nonLinearEffects of Pinocchio; [M0] and [H0]
    are what its data holds at first. [ext]: the external solver. [jn], [js], [jb], [jst]: memory that is not
    initialised. *)
Variables (dif : pdif) (intg : vec Rnum -> vec Rnum -> vec Rnum) (dbg : bool) (nv : nat) (neu : vec Rnum) (mass : vec Rnum -> mat Rnum) (nle : vec Rnum -> vec Rnum -> vec Rnum)
  (M0 : mat Rnum) (H0 : vec Rnum) (ext : Solvers.hqpdata Rnum -> Solvers.fast_code * vec Rnum) (jn : nat -> nat) (js : Solvers.junk Rnum) (jb : bool) (jst : Solvers.status).
(** ex_0_ur5_joint_space_control.py:30 (q0); ur5_conf.py:15, 25, 30 (dt, w_posture, kp_posture); reference of joint i at time t. *)
Variables (q0 : vec Rnum) (w dt kp : R) (x x1 x2 : nat -> R -> R).
Definition all (f : nat -> R) : vec Rnum := @mkVec Rnum nv f.
(** What the formulation asks the robot and the task: there are no contacts. *)
Definition data (c : constr Rnum) (q v : vec Rnum) : env Rnum :=
  mkEnv (mass q) (nle q v) (fun _ => (mzero 0 0, vzero 0)) (fun _ => mzero 0 0) (fun _ _ _ => (mzero 0 0, vzero 0, vzero 0)) (fun _ => (mzero 0 0, vzero 0))
    (fun _ => c) (fun _ => "") (fun _ => vzero 0).
(** ex_0_ur5_joint_space_control.py:26-50 and 86-88. *)
Definition begin : option world :=
  match Formulation.step dbg (init nv nv M0 H0) (@Formulation.OCompute Rnum 0%R (data (new_eq "" 0 0) q0 (vzero nv))), post_new Rtrunc jn task_name neu nv nv nv with
  | Ret f1 OutUnit, Some p0 =>
    match post_step Rtrunc dif p0 (TKp (all (fun _ => kp))) with
    | Ret p1 tt =>
      match post_step Rtrunc dif p1 (TKd (all (fun _ => 2 * sqrt kp)%R)) with
      | Ret p2 tt =>
        match Formulation.step dbg f1 (@OAddMotion Rnum 0 task_name (c_kind (t_c p2)) (mrows (c_mat (t_c p2))) w 1 0%R), post_step Rtrunc dif p2 (TRef q0 (vzero nv) (vzero nv)) with
        | Ret f2 (OutBool true), Ret p3 tt =>
          match Solvers.resize Solvers.Fast dbg js (Solvers.solver_new Solvers.Fast js jb jst) (nVar f2) (Z.to_nat (f_eq f2)) (Z.to_nat (f_in f2)) with
          | Some s => Some (mkWorld 0 f2 p3 s q0 (vzero nv) (vzero nv))
          | None => None
          end
        | _, _ => None
        end
      | _ => None
      end
    | _ => None
    end
  | _, _ => None
  end.
(** Lines 94-102: reference and computeProblemData. *)
Definition pose (st : world) : option (post Rnum * post Rnum * fstate Rnum * Solvers.hqpdata Rnum) :=
  match post_step Rtrunc dif (w_task st) (TRef (all (fun i => x i (w_time st))) (all (fun i => x1 i (w_time st))) (all (fun i => x2 i (w_time st)))) with
  | Ret p1 tt =>
    match post_step Rtrunc dif p1 (TCompute (w_q st) (w_v st)) with
    | Ret p2 tt =>
      match Formulation.step dbg (w_form st) (@Formulation.OCompute Rnum (w_time st) (data (t_c p2) (w_q st) (w_v st))) with
      | Ret f1 OutUnit => match fetch (hqp f1) with Some P => Some (p1, p2, f1, P) | None => None end
      | _ => None
      end
    | _ => None
    end
  | _ => None
  end.
(** One turn of the loop, lines 90-124; the program leaves the loop when the status is not 0. *)
Definition turn (st : world) : option world :=
  match pose st with
  | Some (_, p2, f1, P) =>
    match Solvers.solve Solvers.Fast dbg js (w_solver st) P (fst (ext P)) (snd (ext P)) with
    | Ret s1 (Solvers.St_optimal, y) =>
      match Formulation.step dbg f1 (@OGet Rnum GTau y) with
      | Ret f2 (OutVec _) =>
        match Formulation.step dbg f2 (@OGet Rnum GAcc y) with
        | Ret f3 (OutVec dv) =>
          let v_mean := all (fun i => vget (w_v st) i + / 2 * dt * vget dv i)%R in
          Some (mkWorld (w_time st + dt) f3 p2 s1 (intg (w_q st) (all (fun i => dt * vget v_mean i)%R)) (all (fun i => vget (w_v st) i + dt * vget dv i)%R) dv)
        | _ => None
        end
      | _ => None
      end
    | _ => None
    end
  | None => None
  end.
Fixpoint after_turns (n : nat) : option world :=
  match n with 0 => begin | S n' => match after_turns n' with Some st => turn st | None => None end end.

(** * Specification *)
Definition reg8 : R := (/ 100000000)%R.
(** The external solver is exact on this problem: it answers with a point that satisfies level 0
    and minimises the weighted error of level 1 plus the regularisation. *)
Definition exact_on (cl0 cl1 : Solvers.level Rnum) (a : Solvers.fast_code * vec Rnum) : Prop :=
  fst a = Solvers.F_optimal /\ vlen (snd a) = nv /\ SolverSpec.hard_ok cl0 (vget (snd a)) /\
  forall z, SolverSpec.hard_ok cl0 z -> (SolverSpec.least_squares reg8 nv cl1 (vget (snd a)) <= SolverSpec.least_squares reg8 nv cl1 z)%R.
(** It is exact on the problems the program gives it. *)
Definition exact_ext : Prop := forall n st p1 p2 f1 cl0 cl1, after_turns n = Some st -> pose st = Some (p1, p2, f1, [cl0; cl1]) ->
  (exists z, SolverSpec.hard_ok cl0 z) -> exact_on cl0 cl1 (ext [cl0; cl1]).
(** What Pinocchio guarantees. *)
Definition robot_fine : Prop := respects dif /\ vlen neu = nv /\ FormMain.robot_ok nv M0 H0 /\ (forall q, vlen q = nv -> mrows (mass q) = nv /\ mcols (mass q) = nv) /\
  (forall q v, vlen q = nv -> vlen v = nv -> vlen (nle q v) = nv) /\ (forall q u, vlen q = nv -> vlen u = nv -> vlen (intg q u) = nv).
(** Joint [i] has one number as configuration. *)
Definition scalar_joint (i : nat) : Prop := plain_joint dif nv nv nv i /\ forall q u, vlen q = nv -> vlen u = nv -> vget (intg q u) i = (vget q i + vget u i)%R.

(** * Proofs *)
Local Notation asc := (fun _ : nat => "").
Local Notation start := (init nv nv M0 H0).
Local Notation fstep := (@Formulation.step Rnum dbg).
Lemma fetch_level_ok (l : Solvers.level Rnum) : fetch_level (map (fun wc => (fst wc, Some (snd wc))) l) = Some l.
Proof. induction l as [|[a c] l IH]; [reflexivity|]. cbn [map fetch_level fst snd]. rewrite IH. reflexivity. Qed.
Lemma fetch_ok (s : fstate Rnum) P : problem_of s P -> fetch (hqp s) = Some P.
Proof.
  unfold problem_of. intros ->. induction P as [|l P IH]; [reflexivity|]. cbn [map fetch]. rewrite fetch_level_ok, IH. reflexivity.
Qed.
Lemma good_reach s s0 : reach fstep (assoc_good dbg asc) s0 s -> reach fstep (good dbg) s0 s.
Proof. induction 1 as [|u o v Hr IH Hp Ha]; [constructor|]. eapply reach_step; [exact IH|apply Hp|exact Ha]. Qed.
(** computeProblemData when nothing is being removed. *)
Lemma compute_next s t e : FormMain.robot_ok nv M0 H0 -> reach fstep (assoc_good dbg asc) start s -> f_trans s = [] -> env_ok s e -> (forall id, e_assoc e id = "") ->
  exists s', fstep s (@Formulation.OCompute Rnum t e) = Ret s' OutUnit /\ assoc_good dbg asc s (@Formulation.OCompute Rnum t e) /\ same s s' /\ f_meas s' = f_meas s /\ f_trans s' = [] /\ reach fstep (assoc_good dbg asc) start s'.
Proof.
  intros R0 Hr Ht He Ha. assert (R1 := R0). destruct R1 as (R1 & R2 & R3). destruct (safe_reach dbg nv nv M0 H0 s R1 R2 R3 (good_reach _ _ Hr)) as (A & B & [S _]).
  assert (RT : run_transitions dbg (w_t s t) [] (f_trans s) = Ret (w_t s t) tt) by (rewrite Ht; reflexivity).
  assert (He' : env_ok (w_t s t) e) by (apply (env_ok_same s); [constructor; reflexivity|reflexivity|reflexivity|exact He]).
  destruct (comp_fill_total (w_t s t) e) as (s' & F & _).
  { apply (invA_same s); [constructor; reflexivity|exact A]. }
  { apply (invB_sameB s); [repeat split|exact B]. }
  { apply (invS_rdata s); [exact S|reflexivity|exact (is_cells _ S)]. }
  { exact He'. }
  assert (C : fstep s (@Formulation.OCompute Rnum t e) = Ret s' OutUnit).
  { cbn [Formulation.step]. unfold compute. cbn [w_t f_trans]. rewrite Ht. cbn [run_transitions]. change (comp_fill (w_t s t) e) with (comp_fill (w_t s t) e). unfold w_t in F |- *. rewrite F. reflexivity. }
  assert (G : assoc_good dbg asc s (@Formulation.OCompute Rnum t e)).
  { split; [split; [exact I|]|exact Ha]. split; [intros _ c Hc; rewrite Ht in Hc; contradiction|].
    intros s1 H1. change (run_transitions dbg (w_t s t) [] (f_trans s) = Ret s1 tt) in H1. rewrite RT in H1. injection H1 as <-. exact He'. }
  exists s'. split; [exact C|]. split; [exact G|]. assert (SM := comp_fill_same _ _ _ F). destruct (comp_fill_obs _ _ _ F) as (_ & O2 & _ & _ & O5).
  split; [eapply same_trans; [|exact SM]; constructor; reflexivity|]. split; [exact O2|]. split; [rewrite O5; exact Ht|].
  eapply reach_step; [exact Hr|exact G|]. rewrite C. reflexivity.
Qed.

Record inv (n : nat) (st : world) : Prop := mkInv {
  iv_time : w_time st = (INR n * dt)%R;
  iv_reach : reach fstep (assoc_good dbg asc) start (w_form st);
  iv_trans : f_trans (w_form st) = []; iv_meas : f_meas (w_form st) = []; iv_con : f_contacts (w_form st) = [];
  iv_mot : f_motions (w_form st) = [mkTl 0 task_name 1 1]; iv_for : f_forces (w_form st) = []; iv_act : f_acts (w_form st) = [];
  iv_hqp : f_hqp (w_form st) = [[(1%R : Rnum, 0)]; [(w : Rnum, 1)]];
  iv_cell : exists k, nth_error (shapes (w_form st)) 1 = Some (task_name, CEq, nv, k);
  iv_nv : f_nv (w_form st) = nv; iv_k : f_k (w_form st) = 0;
  iv_made : tmade Rtrunc dif task_name neu nv nv nv (w_task st); iv_mask : t_mask (w_task st) = all (fun _ => 1%R);
  iv_kp : t_kp (w_task st) = all (fun _ => kp); iv_kd : t_kd (w_task st) = all (fun _ => 2 * sqrt kp)%R;
  iv_solver : SolverSizes.solver_state Solvers.Fast dbg (w_solver st);
  iv_q : vlen (w_q st) = nv; iv_v : vlen (w_v st) = nv }.
Hypotheses (HR : robot_fine) (Hw : (0 < w)%R) (HQ0 : vlen q0 = nv).
Lemma made_step p o p' : tmade Rtrunc dif task_name neu nv nv nv p -> tgood Rtrunc p o -> post_step Rtrunc dif p o = Ret p' tt -> tmade Rtrunc dif task_name neu nv nv nv p'.
Proof. intros (jk & s00 & EE & RR) G E. exists jk, s00. split; [exact EE|]. eapply reach_step; [exact RR|exact G|rewrite E; reflexivity]. Qed.
Lemma name_free : ~ reserved task_name.
Proof.
  intros [H|(y & [H|[H|H]])]; [discriminate H| | |].
  all: do 13 (destruct y as [|? y]; cbn in H; [discriminate H|]; try discriminate H; injection H as _ H).
Qed.
Lemma ones_active i : active (all (fun _ => 1%R)) i.
Proof. unfold active, all. cbn. lra. Qed.
Lemma filter_all {A} (f : A -> bool) l : (forall a, f a = true) -> filter f l = l.
Proof. intros H. induction l as [|a l IH]; [reflexivity|]. cbn [filter]. rewrite H, IH. reflexivity. Qed.
Lemma ones_actives : actives (all (fun _ => 1%R)) = seq 0 nv.
Proof.
  unfold actives. rewrite filter_all; [reflexivity|]. intros i. unfold is_on. apply negb_true_iff. change (Reqb 1 0 = false). apply Reqb_false. lra.
Qed.
(** The constraint of the task always has one row per joint. *)
Lemma task_size p : tmade Rtrunc dif task_name neu nv nv nv p -> t_mask p = all (fun _ => 1%R) ->
  c_kind (t_c p) = CEq /\ crows (t_c p) = Some nv /\ mcols (c_mat (t_c p)) = nv /\ mrows (c_mat (t_c p)) = nv.
Proof.
  intros HM EM. destruct HR as (_ & Hq & _). assert (Hq' : nv <= vlen neu) by lia. assert (J := tmade_inv Rtrunc dif good_ones_R _ _ _ _ _ _ (Nat.le_refl nv) Hq' HM).
  assert (RO := ti_rows _ _ _ _ _ _ _ J). destruct RO as (_ & _ & _ & [R1 _] & R2 & _). assert (V := ti_vec _ _ _ _ _ _ _ J). rewrite EM, ones_actives, seq_length in R1, V.
  assert (KD := ti_kind _ _ _ _ _ _ _ J). unfold crows. rewrite KD, R1, V, Nat.eqb_refl. auto.
Qed.
Lemma data_ok st n c : inv n st -> c_kind c = CEq -> crows c = Some nv -> mcols (c_mat c) = nv -> env_ok (w_form st) (data c (w_q st) (w_v st)).
Proof.
  intros J K1 K2 K3. destruct HR as (_ & _ & _ & HM & HN & _). destruct J. unfold env_ok, data. cbn [e_mass e_nle e_cmotion e_gen e_cforce e_creg e_task e_assoc e_meas].
  rewrite iv_nv0, iv_con0, iv_meas0, iv_mot0, iv_for0, iv_act0. split; [apply HM; assumption|]. split; [apply HM; assumption|]. split; [apply HN; assumption|].
  split; [contradiction|]. split; [contradiction|]. split; [|split; contradiction].
  intros t kd r [<-|[]] (k & Hk & <- & <-). cbn [tl_cstr] in Hk. destruct iv_cell0 as (k2 & Hs). apply nth_shape in Hs. destruct Hs as (k' & Hk' & Es). rewrite Hk in Hk'. injection Hk' as <-.
  unfold shape in Es. injection Es as _ E2 E3 _. unfold task_data_ok. rewrite K1, E2, E3. auto.
Qed.
Lemma begin_ok : exists st, begin = Some st /\ inv 0 st /\ w_q st = q0 /\ w_v st = vzero nv.
Proof.
  assert (HR' := HR). destruct HR' as (HD & Hq & R0 & HM & HN & HI). unfold begin.
  destruct (compute_next start 0%R (data (new_eq "" 0 0) q0 (vzero nv)) R0) as (f1 & C1 & G1 & S1 & O1 & T1 & RR1); [constructor|reflexivity| |reflexivity|].
  { unfold env_ok, data, init. cbn. split; [apply HM; assumption|]. split; [apply HM; assumption|]. split; [apply HN; [assumption|reflexivity]|]. repeat split; contradiction. }
  rewrite C1. destruct (post_new_ok Rtrunc good_ones_R jn task_name neu nv nv nv) as (p0 & E0 & _ & MK); [lia|lia|]. rewrite E0.
  assert (P0 : tmade Rtrunc dif task_name neu nv nv nv p0) by (exists jn, p0; split; [exact E0|apply reach_init]).
  destruct (proj1 (post_setters Rtrunc dif good_ones_R task_name neu nv nv nv p0 (Nat.le_refl nv) ltac:(lia) P0) (all (fun _ => kp))) as [SA _]. destruct (SA eq_refl) as (p1 & E1 & X1). rewrite E1.
  assert (P1 := made_step _ (TKp _) _ P0 I E1).
  destruct (proj1 (proj2 (post_setters Rtrunc dif good_ones_R task_name neu nv nv nv p1 (Nat.le_refl nv) ltac:(lia) P1)) (all (fun _ => 2 * sqrt kp)%R)) as [SB _]. destruct (SB eq_refl) as (p2 & E2 & X2). rewrite E2.
  assert (P2 := made_step _ (TKd _) _ P1 I E2).
  destruct (proj2 (proj2 (post_setters Rtrunc dif good_ones_R task_name neu nv nv nv p2 (Nat.le_refl nv) ltac:(lia) P2)) q0 (vzero nv) (vzero nv)) as [SC _]. destruct (SC ltac:(auto)) as (p3 & E3 & X3). rewrite E3.
  assert (P3 := made_step _ (TRef _ _ _) _ P2 I E3).
  destruct X1 as (KP1 & KD1 & _ & _ & _ & MK1 & _), X2 as (KP2 & KD2 & _ & _ & _ & MK2 & TC2), X3 as (KP3 & KD3 & _ & _ & _ & MK3 & _).
  destruct (task_size p2 P2) as (K1 & K2 & K3 & K4); [rewrite MK2, MK1, MK; reflexivity|]. rewrite K1, K4.
  destruct S1 as [a1 a2 a3 a4 a5 a6 a7 a8 a9 a10 a11 a12 a13 a14 a15]. cbn [init f_nv f_nu f_k f_hqp f_contacts f_motions f_forces f_acts f_meas] in *.
  assert (LH : List.length (f_heap f1) = 1). { apply (f_equal (@List.length _)) in a6. unfold shapes in a6. rewrite !map_length in a6. exact a6. }
  assert (AD : fstep f1 (@OAddMotion Rnum 0 task_name CEq nv w 1 0%R) =
    Ret (w_motions (w_hqp (w_heap f1 (f_heap f1 ++ [new_task_cstr task_name CEq nv (f_nv f1 + f_k f1)])) [[(1%R : Rnum, 0)]; [(w : Rnum, 1)]]) (f_motions f1 ++ [mkTl 0 task_name 1 1])) (OutBool true)).
  { cbn [Formulation.step]. unfold add_motion. replace (@args_ok Rnum w 0%R) with true.
    - unfold add_task_cstr. rewrite a7, LH. cbn [List.length Nat.ltb Nat.leb Nat.eqb push_level]. reflexivity.
    - symmetry. unfold args_ok. apply andb_true_intro. split; apply Rleb_true; cbn; lra. }
  rewrite AD. set (f2 := w_motions _ _).
  assert (G2 : assoc_good dbg asc f1 (@OAddMotion Rnum 0 task_name CEq nv w 1 0%R)).
  { split; [split|exact I].
    - split; [exact name_free|]. unfold hqp_names. rewrite a7. cbn [concat app map snd]. intros [H|[]].
      assert (N : nth_error (shapes f1) 0 = nth_error (shapes start) 0) by (rewrite a6; reflexivity). unfold shapes in N. rewrite !nth_error_map in N. unfold name_at in H.
      destruct (nth_error (f_heap f1) 0) as [k|]; [|discriminate]. apply (f_equal (option_map (fun z => fst (fst (fst z))))) in N. cbn in N. injection N as N. rewrite N in H. discriminate.
    - cbn [op_ok]. rewrite a7. cbn. lia. }
  assert (RR2 : reach fstep (assoc_good dbg asc) start f2) by (eapply reach_step; [exact RR1|exact G2|rewrite AD; reflexivity]).
  destruct (SolverSizes.resize_total Solvers.Fast dbg js (Solvers.solver_new Solvers.Fast js jb jst) (nVar f2) (Z.to_nat (f_eq f2)) (Z.to_nat (f_in f2)) I) as (s1 & ES). rewrite ES.
  eexists. split; [reflexivity|]. split; [|split; reflexivity]. constructor; cbn [w_time w_form w_task w_solver w_q w_v].
  - cbn. lra.
  - exact RR2.
  - exact T1.
  - exact O1.
  - exact a9.
  - change (f_motions f1 ++ [mkTl 0 task_name 1 1] = [mkTl 0 task_name 1 1]). rewrite a10. reflexivity.
  - exact a11.
  - exact a12.
  - reflexivity.
  - exists (f_nv f1 + f_k f1). unfold f2, shapes. cbn [w_motions w_hqp w_heap f_heap]. rewrite map_app, nth_error_app2; rewrite map_length, LH; [reflexivity|lia].
  - exact a1.
  - exact a3.
  - exact P3.
  - rewrite MK3, MK2, MK1, MK. reflexivity.
  - rewrite KP3, KP2, KP1. reflexivity.
  - rewrite KD3, KD2. reflexivity.
  - exists js, jb, jst. eapply (reach_step _ _ _ _ (Solvers.SResize Solvers.Fast (nVar f2) (Z.to_nat (f_eq f2)) (Z.to_nat (f_in f2)) js)); [constructor|exact I|]. cbn [Solvers.sstep]. rewrite ES. reflexivity.
  - exact HQ0.
  - reflexivity.
Qed.

Lemma get_keeps s g y : FormMain.robot_ok nv M0 H0 -> reach fstep (assoc_good dbg asc) start s -> vlen y = nVar s -> match g with GForceOf _ => False | _ => True end ->
  exists s' u, fstep s (@OGet Rnum g y) = Ret s' (OutVec u) /\ get s g y = Ret s' u /\ reach fstep (assoc_good dbg asc) start s'.
Proof.
  intros R0 Hr Ly Hg. assert (OK : op_ok dbg s (@OGet Rnum g y)) by (split; [rewrite Ly; split; [apply Nat.le_add_r|apply Nat.le_add_l]|destruct g; try exact I; contradiction]). assert (R1 := R0). destruct R1 as (R1 & R2 & R3).
  assert (U := no_undef dbg nv nv M0 H0 s _ R1 R2 R3 (good_reach _ _ Hr) OK).
  cbn [Formulation.step] in *. destruct (get s g y) as [s' u|s'|] eqn:G; [|exfalso|exfalso; apply U; reflexivity].
  - exists s', u. split; [reflexivity|]. split; [reflexivity|]. eapply reach_step with (o := @OGet Rnum g y); [exact Hr|split; [split; [exact I|exact OK]|exact I]|]. cbn [Formulation.step]. rewrite G. reflexivity.
  - unfold get in G. destruct (decode s y); [|discriminate]. destruct g; try discriminate. contradiction.
Qed.
(** What computeProblemData gives in one turn. *)
Record posed (n : nat) (st : world) (p1 p2 : post Rnum) (f1 : fstate Rnum) (cl0 cl1 : Solvers.level Rnum) (c : constr Rnum) : Prop := mkPosed {
  ps_pose : pose st = Some (p1, p2, f1, [cl0; cl1]);
  ps_made1 : tmade Rtrunc dif task_name neu nv nv nv p1;
  ps_mask1 : t_mask p1 = all (fun _ => 1%R); ps_kp1 : t_kp p1 = all (fun _ => kp); ps_kd1 : t_kd p1 = all (fun _ => 2 * sqrt kp)%R;
  ps_val1 : t_val p1 = all (fun i => x i (INR n * dt)); ps_der1 : t_der p1 = all (fun i => x1 i (INR n * dt)); ps_sec1 : t_sec p1 = all (fun i => x2 i (INR n * dt));
  ps_compute : post_step Rtrunc dif p1 (TCompute (w_q st) (w_v st)) = Ret p2 tt;
  ps_made2 : tmade Rtrunc dif task_name neu nv nv nv p2;
  ps_mask2 : t_mask p2 = all (fun _ => 1%R); ps_kp2 : t_kp p2 = all (fun _ => kp); ps_kd2 : t_kd p2 = all (fun _ => 2 * sqrt kp)%R;
  ps_step : fstep (w_form st) (@Formulation.OCompute Rnum (w_time st) (data (t_c p2) (w_q st) (w_v st))) = Ret f1 OutUnit;
  ps_good : assoc_good dbg asc (w_form st) (@Formulation.OCompute Rnum (w_time st) (data (t_c p2) (w_q st) (w_v st)));
  ps_same : same (w_form st) f1; ps_meas : f_meas f1 = []; ps_trans : f_trans f1 = []; ps_reach : reach fstep (assoc_good dbg asc) start f1;
  ps_only : only f1 (mkTl 0 task_name 1 1); ps_hqp : f_hqp f1 = [[(1%R : Rnum, 0)]; [(w : Rnum, 1)]]; ps_nvar : nVar f1 = nv;
  ps_problem : problem_of f1 [cl0; cl1]; ps_soft : cl1 = [(w, c)]; ps_cell : nth_error (f_heap f1) 1 = Some c; ps_kind : c_kind c = CEq; ps_name : c_name c = task_name;
  ps_pwf : SolverSpec.pwf nv [cl0; cl1]; ps_free : forall z, SolverSpec.hard_ok cl0 z }.
Lemma pose_ok n st : inv n st -> exists p1 p2 f1 cl0 cl1 c, posed n st p1 p2 f1 cl0 cl1 c.
Proof.
  intros J. assert (HR' := HR). destruct HR' as (HD & Hq & R0 & HM & HN & HI). assert (J' := J). destruct J'. rename iv_time0 into TM.
  destruct (proj2 (proj2 (post_setters Rtrunc dif good_ones_R task_name neu nv nv nv (w_task st) (Nat.le_refl nv) ltac:(lia) iv_made0))
    (all (fun i => x i (w_time st))) (all (fun i => x1 i (w_time st))) (all (fun i => x2 i (w_time st)))) as [SC _]. destruct (SC ltac:(auto)) as (p1 & E1 & X1).
  assert (P1 := made_step _ (TRef _ _ _) _ iv_made0 I E1). destruct X1 as (KP1 & KD1 & V1 & D1 & A1 & MK1 & _).
  destruct (post_defined Rtrunc dif good_ones_R task_name neu nv nv nv p1 (w_q st) (w_v st) (Nat.le_refl nv) ltac:(lia) P1 ltac:(lia) ltac:(lia)) as (p2 & E2 & SP & P2 & _).
  destruct SP as (KP2 & KD2 & _ & _ & _ & MK2).
  destruct (task_size p2 P2) as (K1 & K2 & K3 & K4); [rewrite MK2, MK1; exact iv_mask0|].
  destruct (compute_next (w_form st) (w_time st) (data (t_c p2) (w_q st) (w_v st)) R0 iv_reach0 iv_trans0 (data_ok st n _ J K1 K2 K3) (fun _ => eq_refl)) as (f1 & C1 & G1 & S1 & O1 & T1 & RR1).
  set (e := data (t_c p2) (w_q st) (w_v st)) in *.
  destruct (problem_shape dbg nv nv M0 H0 f1 R0 (good_reach _ _ RR1)) as (cl0 & cl1 & E & Hne & W0 & W1 & B0 & B1).
  assert (PO : pose st = Some (p1, p2, f1, [cl0; cl1])). { unfold pose. rewrite E1, E2. fold e. rewrite C1, (fetch_ok _ _ E). reflexivity. }
  assert (S1' := S1). destruct S1' as [a1 a2 a3 a4 a5 a6 a7 a8 a9 a10 a11 a12 a13 a14 a15].
  rewrite iv_nv0 in a1. rewrite iv_k0 in a3. rewrite iv_hqp0 in a7. rewrite iv_con0 in a9. rewrite iv_mot0 in a10. rewrite iv_for0 in a11. rewrite iv_act0 in a12. rewrite iv_meas0 in O1.
  destruct (after_facts dbg nv nv M0 H0 asc (w_form st) (w_time st) e f1 R0 iv_reach0 G1 C1) as (IA & IB & Sz & DO & En & Nd & N1 & N2).
  assert (ON : only f1 (mkTl 0 task_name 1 1)) by (repeat split; assumption).
  assert (NV : nVar f1 = nv) by (unfold nVar; lia).
  assert (CELL : exists c, nth_error (f_heap f1) 1 = Some c /\ c_kind c = CEq /\ c_name c = task_name).
  { destruct iv_cell0 as (k & Hs). rewrite <- a6 in Hs. apply nth_shape in Hs. destruct Hs as (c & Hc & Es). exists c. unfold shape in Es. injection Es as Q1 Q2 _ _. auto. }
  destruct CELL as (c & Hc & Kc & Nc).
  assert (SF : cl1 = [(w, c)]).
  { assert (EH := E). unfold problem_of, hqp in EH. rewrite a7 in EH. cbn [map] in EH. injection EH as _ EH. unfold deref in EH. cbn [fst snd] in EH. rewrite Hc in EH.
    destruct cl1 as [|[w1 c1] [|? ?]]; cbn [map fst snd] in EH; try discriminate. injection EH as <- <-. reflexivity. }
  assert (W : SolverSpec.pwf nv [cl0; cl1]).
  { exists cl0, cl1. rewrite NV in W0, W1. split; [reflexivity|]. split; [exact Hne|]. split; [exact W0|]. split; [exact W1|]. intros w' c' Hin. rewrite SF in Hin. destruct Hin as [Hin|[]]. congruence. }
  assert (PH : forall z, SolverSpec.hard_ok cl0 z).
  { intros z. apply (hard_same f1 cl0 [cl1] z E). apply (feasible_physical dbg nv nv M0 H0 asc (w_form st) (w_time st) e f1 R0 iv_reach0 G1 C1 z). apply (only_free e f1 _ ltac:(lia) ON). }
  exists p1, p2, f1, cl0, cl1, c. constructor; try assumption; rewrite <- ?TM; try congruence.
Qed.
Lemma turn_ok n st : inv n st ->
  (forall p1 p2 f1 cl0 cl1, pose st = Some (p1, p2, f1, [cl0; cl1]) -> (exists z, SolverSpec.hard_ok cl0 z) -> exact_on cl0 cl1 (ext [cl0; cl1])) ->
  exists p1 st', turn st = Some st' /\ inv (S n) st' /\ (exists p2 f1 P, pose st = Some (p1, p2, f1, P)) /\
    t_mask p1 = all (fun _ => 1%R) /\ t_kp p1 = all (fun _ => kp) /\ t_kd p1 = all (fun _ => 2 * sqrt kp)%R /\
    t_val p1 = all (fun i => x i (INR n * dt)) /\ t_der p1 = all (fun i => x1 i (INR n * dt)) /\ t_sec p1 = all (fun i => x2 i (INR n * dt)) /\
    (forall i, i < nv -> period dif dbg nv i task_name neu M0 H0 asc w reg8 p1 (w_q st) (w_v st) (vget (w_dv st') i)) /\
    w_q st' = intg (w_q st) (all (fun i => dt * (vget (w_v st) i + / 2 * dt * vget (w_dv st') i))%R) /\
    w_v st' = all (fun i => vget (w_v st) i + dt * vget (w_dv st') i)%R.
Proof.
  intros J HX. assert (HR' := HR). destruct HR' as (HD & Hq & R0 & HM & HN & HI). destruct (pose_ok n st J) as (p1 & p2 & f1 & cl0 & cl1 & c & PS). assert (J' := J). destruct J'. rename iv_time0 into TM.
  destruct PS as [PO P1 MK1 KP1 KD1 V1 D1 A1 E2 P2 MK2 KP2 KD2 C1 G1 S1 O1 T1 RR1 ON a7 NV E SF Hc Kc Nc W PH].
  set (e := data (t_c p2) (w_q st) (w_v st)) in *.
  destruct S1 as [a1 a2 a3 _ _ a6 _ _ a9 a10 a11 a12 _ _ _].
  rewrite iv_nv0 in a1. rewrite iv_k0 in a3. rewrite iv_con0 in a9. rewrite iv_mot0 in a10. rewrite iv_for0 in a11. rewrite iv_act0 in a12.
  destruct (after_facts dbg nv nv M0 H0 asc (w_form st) (w_time st) e f1 R0 iv_reach0 G1 C1) as (IA & IB & Sz & DO & En & Nd & N1 & N2).
  assert (U : SolverMain.usable Solvers.Fast dbg nv [cl0; cl1] (w_solver st)) by (split; [exact iv_solver0|]; split; [exact I|discriminate]).
  destruct (HX p1 p2 f1 cl0 cl1 PO (ex_intro _ (fun _ => 0%R) (PH _))) as (X1 & X2 & X3 & X4).
  destruct (ext [cl0; cl1]) as [ans y] eqn:EX. cbn [fst snd] in X1, X2, X3, X4. subst ans.
  destruct (SolverMain.accept Solvers.Fast dbg js (w_solver st) nv [cl0; cl1] Solvers.F_optimal y U W) as (s1 & [res y'] & SV).
  assert (SV' : Solvers.solve Solvers.Fast dbg js (w_solver st) [cl0; cl1] Solvers.F_optimal y = Ret s1 (Solvers.St_optimal, y)).
  { rewrite SV. destruct (SolverMain.solve_status _ _ _ _ _ _ _ _ _ _ SV) as (Q1 & _ & Q2 & _). destruct (Q1 ltac:(cbn; congruence)) as [Q3 _]. rewrite (proj2 Q3 eq_refl), (Q2 eq_refl). reflexivity. }
  assert (SN := SolverRefute.solve_n _ _ _ _ _ _ _ _ _ _ U W SV').
  assert (EA : exact_answer Solvers.Fast s1 Solvers.F_optimal y).
  { intros _. assert (FF : forall z, SolverSpec.qp_feasible Solvers.Fast s1 z).
    { intros z. apply (SolverMain.solve_feasible _ _ _ _ _ _ _ _ _ _ iv_solver0 I SV'). split; [apply PH|]. intros Q. discriminate Q. }
    split; [apply FF|]. apply (SolverMain.solve_minimisers _ _ _ _ _ _ _ _ _ _ iv_solver0 SV' (SolverSpec.qp_feasible Solvers.Fast s1) (vget y)).
    intros z _. rewrite SN. change (SolverMain.solve_reg Solvers.Fast) with reg8. apply X4, PH. }
  assert (LY : vlen y = nVar f1) by lia.
  destruct (get_keeps f1 GTau y R0 RR1 LY I) as (f2 & tau & G2 & GG2 & RR2). apply get_answer in GG2 as [DC2 _]. destruct (decode_encodes f1 y f2 Nd LY DC2) as (Dt & _ & F2).
  assert (LY2 : vlen y = nVar f2) by (rewrite F2; exact LY).
  destruct (get_keeps f2 GAcc y R0 RR2 LY2 I) as (f3 & dv & G3 & GG3 & RR3). apply get_answer in GG3 as [DC3 AN]. rewrite (decode_cached f2 y Dt) in DC3. injection DC3 as <-. cbn [answer] in AN.
  destruct (decode_encodes f1 y f2 Nd LY DC2) as (_ & (L1 & L2 & _) & _). rewrite <- AN in L1, L2. rewrite N1 in L1, L2.
  exists p1. eexists. split.
  { unfold turn. rewrite PO, EX. cbn [fst snd]. rewrite SV', G2, G3. reflexivity. }
  cbn [w_time w_form w_task w_solver w_q w_v w_dv all vget].
  split; [|split; [exists p2, f1, [cl0; cl1]; exact PO|]].
  - constructor; cbn [w_time w_form w_task w_solver w_q w_v w_dv].
    + rewrite TM, S_INR. ring.
    + exact RR3.
    + rewrite F2. exact T1.
    + rewrite F2. exact O1.
    + rewrite F2. exact a9.
    + rewrite F2. exact a10.
    + rewrite F2. exact a11.
    + rewrite F2. exact a12.
    + rewrite F2. exact a7.
    + rewrite F2. change (exists k, nth_error (shapes f1) 1 = Some (task_name, CEq, nv, k)). rewrite a6. exact iv_cell0.
    + rewrite F2. exact a1.
    + rewrite F2. exact a3.
    + exact P2.
    + exact MK2.
    + exact KP2.
    + exact KD2.
    + destruct iv_solver0 as (k1 & k2 & k3 & Hs). exists k1, k2, k3. eapply (reach_step _ _ _ _ (Solvers.SSolve Solvers.Fast [cl0; cl1] js Solvers.F_optimal y)); [exact Hs|exact I|]. cbn [Solvers.sstep]. rewrite SV'. reflexivity.
    + apply HI; [assumption|reflexivity].
    + reflexivity.
  - split; [exact MK1|]. split; [exact KP1|]. split; [exact KD1|]. split; [exact V1|]. split; [exact D1|]. split; [exact A1|].
    split; [|split; reflexivity]. intros i Hi. constructor; [exact P1|exact iv_v0|].
    exists p2, e, f1, (mkTl 0 task_name 1 1), y. split; [exact E2|]. split; [|split; [exact ON|split; [reflexivity|split; [|apply L2; exact Hi]]]].
    + split; [exact R0|]. exists (w_form st), (w_time st), cl0, cl1, Solvers.Fast, dbg, js, (w_solver st), Solvers.F_optimal, y, s1.
      split; [exact iv_reach0|]. split; [exact G1|]. split; [exact C1|]. split; [exact E|]. split; [exact iv_solver0|]. split; [exact I|]. split; [cbn; congruence|]. split; [exact SV'|]. split; [exact EA|reflexivity].
    + cbn [tl_name]. rewrite (soft_in f1 _ _ task_name IA a7). unfold weigh_in, lsum. cbn [fold_right fst snd map]. unfold name_at. rewrite Hc, Nc, String.eqb_refl. lra.
Qed.

(** The program never stops. *)
Lemma runs : exact_ext -> forall n, exists st, after_turns n = Some st /\ inv n st.
Proof.
  intros HX n. induction n as [|n (st & E & J)].
  - destruct begin_ok as (st & E & J & _). exists st. auto.
  - destruct (turn_ok n st J (fun p1 p2 f1 cl0 cl1 PO => HX n st p1 p2 f1 cl0 cl1 E PO)) as (p1 & st' & T & J' & _). exists st'. split; [|exact J']. cbn [after_turns]. rewrite E. exact T.
Qed.
(** Distance at the start: the robot is at q0 and does not move. *)
Definition far_off (i : nat) : R :=
  Rmax (Rabs (vget q0 i - x i 0)) (2 * Rabs (vget q0 i - x i 0 - x1 i 0 / sqrt kp)).
Theorem program_tracks : exact_ext -> (7 * reg8 <= w -> 0 < kp -> 0 < dt -> sqrt kp * dt <= 1 / 2 ->
  forall n, exists st, after_turns n = Some st /\ w_time st = INR n * dt /\
    forall i A B, (i < nv)%nat -> scalar_joint i -> thrice (x i) (x1 i) (x2 i) B -> (forall t, 0 <= t -> Rabs (x2 i t) <= A) ->
    Rabs (vget (w_q st) i - x i (w_time st)) <= (1 - sqrt kp * dt / 2) ^ n * far_off i + remains w reg8 dt kp A B /\
    Rabs (vget (w_v st) i - x1 i (w_time st)) <= sqrt kp * (3 / 2 * ((1 - sqrt kp * dt / 2) ^ n * far_off i) + 2 * remains w reg8 dt kp A B))%R.
Proof.
  intros HX H7 Hk Hd Hth n. assert (RU := runs HX). destruct (RU n) as (st & EN & J). exists st. split; [exact EN|]. split; [exact (iv_time _ _ J)|].
  intros i A B Hi [SJ SI] T3 HA. rewrite (iv_time _ _ J). assert (HR' := HR). destruct HR' as (HD & Hq & _).
  set (W := fun k => match after_turns k with Some s => s | None => st end).
  assert (WO : forall k, after_turns k = Some (W k) /\ inv k (W k)) by (intros k; unfold W; destruct (RU k) as (s & E & Js); rewrite E; auto).
  set (P := fun k => match pose (W k) with Some (p1, _, _, _) => p1 | None => w_task st end).
  assert (TK : forall k, turn (W k) = Some (W (S k)) /\
    t_mask (P k) = all (fun _ => 1%R) /\ t_kp (P k) = all (fun _ => kp) /\ t_kd (P k) = all (fun _ => 2 * sqrt kp)%R /\
    t_val (P k) = all (fun i => x i (INR k * dt)) /\ t_der (P k) = all (fun i => x1 i (INR k * dt)) /\ t_sec (P k) = all (fun i => x2 i (INR k * dt)) /\
    (forall i, i < nv -> period dif dbg nv i task_name neu M0 H0 asc w reg8 (P k) (w_q (W k)) (w_v (W k)) (vget (w_dv (W (S k))) i)) /\
    w_q (W (S k)) = intg (w_q (W k)) (all (fun i => dt * (vget (w_v (W k)) i + / 2 * dt * vget (w_dv (W (S k))) i))%R) /\
    w_v (W (S k)) = all (fun i => vget (w_v (W k)) i + dt * vget (w_dv (W (S k))) i)%R).
  { intros k. destruct (WO k) as [Ek Jk]. destruct (turn_ok k (W k) Jk (fun p1 p2 f1 cl0 cl1 PO => HX k (W k) p1 p2 f1 cl0 cl1 Ek PO)) as (p1 & st' & T & _ & (p2 & f1 & Q & PO) & REST).
    assert (ES : W (S k) = st') by (unfold W at 1; cbn [after_turns]; rewrite Ek, T; reflexivity). rewrite ES. split; [exact T|]. unfold P. rewrite PO. exact REST. }
  assert (EX : exercise dif dbg nv i task_name neu M0 H0 asc w reg8 dt kp (x i) (x1 i) (x2 i) P (fun k => w_q (W k)) (fun k => w_v (W k)) (fun k => vget (w_dv (W (S k))) i)).
  { constructor; intros k; destruct (TK k) as (_ & M & KP & KD & VA & DE & SE & PE & EQ & EV).
    - apply PE. exact Hi.
    - rewrite M. apply ones_active.
    - rewrite KP. reflexivity.
    - rewrite KD. reflexivity.
    - rewrite VA, DE, SE. split; [reflexivity|]. split; reflexivity.
    - rewrite EQ, SI; [cbn [all vget]; lra|apply (iv_q _ _ (proj2 (WO k)))|reflexivity].
    - rewrite EV. reflexivity. }
  assert (MAIN := joint_tracks dif dbg nv i task_name neu M0 H0 asc w reg8 dt kp (x i) (x1 i) (x2 i) A B P _ _ _ HD Hq SJ Hi Hw H7 Hk Hd Hth T3 HA EX n). cbv beta zeta in MAIN.
  assert (EWn : W n = st) by (unfold W; rewrite EN; reflexivity). rewrite EWn in MAIN.
  destruct begin_ok as (st0 & E0 & _ & Q0 & V0). assert (W0 : W 0 = st0) by (unfold W; cbn [after_turns]; rewrite E0; reflexivity). rewrite W0, Q0, V0 in MAIN. cbn [INR vzero vget] in MAIN.
  replace (0 * dt)%R with 0%R in MAIN by ring.
  replace (Rmax _ _) with (far_off i) in MAIN; [exact MAIN|]. unfold far_off. f_equal. f_equal. f_equal. change (@n0 Rnum) with 0%R. unfold Rdiv. ring.
Qed.
(** * An exact solver *)
(** The program gives the external solver a problem that has a solution in closed form. *)
Definition pick (P : Solvers.hqpdata Rnum) : Solvers.fast_code * vec Rnum :=
  match P with
  | [_; [(u, c)]] => (Solvers.F_optimal, all (fun i => u / (u + reg8) * vget (c_vec c) i)%R)
  | _ => (Solvers.F_optimal, vzero nv)
  end.
Lemma square_best (a r b z : R) : (0 < a -> 0 < r ->
  a * ((a / (a + r) * b - b) * (a / (a + r) * b - b)) + r * ((a / (a + r) * b) * (a / (a + r) * b)) <= a * ((z - b) * (z - b)) + r * (z * z))%R.
Proof.
  intros Ha Hr. assert (X : (a * ((z - b) * (z - b)) + r * (z * z) - (a * ((a / (a + r) * b - b) * (a / (a + r) * b - b)) + r * ((a / (a + r) * b) * (a / (a + r) * b))) =
    (a + r) * ((z - a / (a + r) * b) * (z - a / (a + r) * b)))%R) by (field; lra).
  assert (0 <= (a + r) * ((z - a / (a + r) * b) * (z - a / (a + r) * b)))%R by (apply Rmult_le_pos; [lra|apply Rle_0_sqr]). lra.
Qed.
Lemma pick_exact n st p1 p2 f1 cl0 cl1 c : inv n st -> posed n st p1 p2 f1 cl0 cl1 c -> exact_on cl0 cl1 (pick [cl0; cl1]).
Proof.
  intros J PS. assert (HR' := HR). destruct HR' as (HD & Hq & R0 & HM & HN & HI). assert (J' := J). destruct J'.
  destruct PS as [PO P1 MK1 KP1 KD1 V1 D1 A1 E2 P2 MK2 KP2 KD2 C1 G1 S1 O1 T1 RR1 ON a7 NV E SF Hc Kc Nc W PH].
  set (e := data (t_c p2) (w_q st) (w_v st)) in *.
  destruct (after_facts dbg nv nv M0 H0 asc (w_form st) (w_time st) e f1 R0 iv_reach0 G1 C1) as (IA & IB & Sz & DO & En & Nd & N1 & N2).
  assert (HE : forall w' c', In (w', c') cl1 -> c_kind c' = CEq) by (intros w' c' Hin; rewrite SF in Hin; destruct Hin as [Hin|[]]; congruence).
  destruct (task_shape dif task_name neu nv p1 p2 (w_q st) (w_v st) HD ltac:(lia) P1 E2) as (TK & TV & _ & TR & _). rewrite MK1, ones_actives in TR, TV. rewrite seq_length in TV.
  assert (EV : c_vec c = c_vec (t_c p2)).
  { destruct (dk_motion _ _ DO (mkTl 0 task_name 1 1)) as (k & Hk & _ & _ & SR); [rewrite (proj1 ON); left; reflexivity|]. cbn [tl_cstr] in Hk. rewrite Hc in Hk. injection Hk as <-.
    unfold same_rhs in SR. change (e_task e (tl_task (mkTl 0 task_name 1 1))) with (t_c p2) in SR. rewrite TK in SR. exact SR. }
  assert (COST : forall z, SolverSpec.least_squares reg8 nv cl1 z = (/ 2 * @nsum Rnum nv (fun i => w * ((z i - vget (c_vec c) i) * (z i - vget (c_vec c) i)) + reg8 * (z i * z i)))%R).
  { intros z. unfold SolverSpec.least_squares. f_equal. rewrite (soft_meaning f1 e IA IB Sz DO En cl0 cl1 _ _ a7 E HE z), (only_cost f1 e _ z ON).
    assert (SW : soft_weight f1 task_name = w). { rewrite (soft_in f1 _ _ task_name IA a7). unfold weigh_in, lsum. cbn [fold_right fst snd map]. unfold name_at. rewrite Hc, Nc, String.eqb_refl. lra. }
    cbn [tl_name tl_task]. rewrite SW. change (e_task e 0) with (t_c p2). unfold gap. rewrite TK. unfold eq_gap, SolverSpec.sqnorm. rewrite TV, <- EV, <- !rsum_scal, <- rsum_plus. apply rsum_ext. intros k Hk.
    rewrite (TR z k k) by (rewrite (nth_error_nth' _ 0) by (rewrite seq_length; exact Hk); rewrite seq_nth by exact Hk; reflexivity). reflexivity. }
  unfold exact_on, pick. rewrite SF. cbn [fst snd]. split; [reflexivity|]. split; [reflexivity|]. split; [apply PH|]. intros z _. rewrite <- SF, !COST. apply Rmult_le_compat_l; [lra|].
  apply Rminus_le. rewrite <- rsum_minus, <- (Ropp_involutive (@nsum Rnum nv _)), <- rsum_opp. apply Ropp_le_cancel. rewrite Ropp_0, Ropp_involutive. apply rsum_nonneg. intros k Hk. cbn [all vget].
  assert (X := square_best w reg8 (vget (c_vec c) k) (z k) Hw ltac:(unfold reg8; lra)). lra.
Qed.
Theorem pick_is_exact : (forall P, ext P = pick P) -> exact_ext.
Proof.
  intros HP. assert (ST : forall n st p1 p2 f1 cl0 cl1, inv n st -> pose st = Some (p1, p2, f1, [cl0; cl1]) -> exact_on cl0 cl1 (ext [cl0; cl1])).
  { intros n st p1 p2 f1 cl0 cl1 J PO. destruct (pose_ok n st J) as (p1' & p2' & f1' & cl0' & cl1' & c & PS). assert (PO' := ps_pose _ _ _ _ _ _ _ _ PS). rewrite PO in PO'. injection PO' as -> -> -> -> ->.
    rewrite HP. apply (pick_exact n st p1' p2' f1' cl0' cl1' c J PS). }
  assert (RU : forall n, exists st, after_turns n = Some st /\ inv n st).
  { intros n. induction n as [|n (st & E & J)].
    - destruct begin_ok as (st & E & J & _). exists st. auto.
    - destruct (turn_ok n st J (fun p1 p2 f1 cl0 cl1 PO _ => ST n st p1 p2 f1 cl0 cl1 J PO)) as (p1 & st' & T & J' & _). exists st'. split; [|exact J']. cbn [after_turns]. rewrite E. exact T. }
  intros n st p1 p2 f1 cl0 cl1 E PO _. destruct (RU n) as (st' & E' & J). rewrite E in E'. injection E' as <-. exact (ST n st p1 p2 f1 cl0 cl1 J PO).
Qed.
End Program.

(** * The numbers of the exercise *)
(** Six joints with one number each; gains, weight, period, start and references of the exercise.
    Mass matrix and non linear effects: those of the robot are not needed, any will do. *)
Definition sum6 (q u : vec Rnum) : vec Rnum := @mkVec Rnum 6 (fun i => vget q i + vget u i)%R.
Definition mass6 (q : vec Rnum) : mat Rnum := mident 6 6.
Definition nle6 (q v : vec Rnum) : vec Rnum := @mkVec Rnum 6 (fun i => vget q i * vget v i)%R.
Definition entry6 (l : list R) (i : nat) : R := nth i l 0%R.
Definition start6 : vec Rnum := @mkVec Rnum 6 (entry6 [0; -1; 7 / 10; 0; 0; 0])%R.
Definition amp6 : nat -> R := entry6 [2 / 10; 3 / 10; 4 / 10; 0; 0; 0]%R.
Definition phase6 : nat -> R := entry6 [0; PI / 2; 0; 0; 0; 0]%R.
Definition pulse6 : nat -> R := entry6 [2 * PI; 2 * PI * (5 / 10); 2 * PI * (3 / 10); 0; 0; 0]%R.
Definition ref6 (i : nat) : R -> R := wave (vget start6 i) (amp6 i) (pulse6 i) (phase6 i).
Definition ref6' (i : nat) : R -> R := wave1 (amp6 i) (pulse6 i) (phase6 i).
Definition ref6'' (i : nat) : R -> R := wave2 (amp6 i) (pulse6 i) (phase6 i).
Definition jk6 : Solvers.junk Rnum := fun _ _ _ => 0%R.
Lemma fine6 : robot_fine dif1 sum6 6 (vzero 6) mass6 nle6 (mident 6 6) (vzero 6).
Proof. split; [apply respects_dif1|]. split; [reflexivity|]. split; [repeat split|]. split; [intros; split; reflexivity|]. split; intros; reflexivity. Qed.
Lemma scalar6 i : i < 6 -> scalar_joint dif1 sum6 6 i.
Proof.
  intros Hi. split; [|intros; reflexivity]. intros a q Ha Hq. unfold dif1. rewrite Ha. change (6 - 6 + i) with i. replace (i <? 6) with true by (symmetry; apply Nat.ltb_lt; exact Hi). reflexivity.
Qed.
(** After [n] turns. *)
Definition run6 (dbg : bool) (n : nat) : option world :=
  after_turns dif1 sum6 dbg 6 (vzero 6) mass6 nle6 (mident 6 6) (vzero 6) (pick 6) (fun _ => 0) jk6 false Solvers.St_unknown start6 (/ 1000)%R (2 / 1000)%R 1%R ref6 ref6' ref6'' n.
Theorem exercise_numbers dbg : forall n, exists st, run6 dbg n = Some st /\
  forall i, i < 6 -> (Rabs (vget (w_q st) i - ref6 i (2 / 1000 * INR n)) <= (999 / 1000) ^ n * (2 * Rabs (amp6 i * sin (phase6 i)) + 2 * Rabs (pulse6 i * amp6 i)) + (27 / 10000 * pulse6 i + 31 / 1000000) * (pulse6 i * pulse6 i * amp6 i))%R.
Proof.
  intros n. assert (S1 : sqrt 1 = 1%R) by apply sqrt_1.
  assert (HX := pick_is_exact dif1 sum6 dbg 6 (vzero 6) mass6 nle6 (mident 6 6) (vzero 6) (pick 6) (fun _ => 0) jk6 false Solvers.St_unknown start6 (/ 1000)%R (2 / 1000)%R 1%R ref6 ref6' ref6'' fine6 ltac:(lra) eq_refl (fun _ => eq_refl)).
  destruct (program_tracks dif1 sum6 dbg 6 (vzero 6) mass6 nle6 (mident 6 6) (vzero 6) (pick 6) (fun _ => 0) jk6 false Solvers.St_unknown start6 (/ 1000)%R (2 / 1000)%R 1%R ref6 ref6' ref6'' fine6 ltac:(lra) eq_refl HX
    ltac:(unfold reg8; lra) ltac:(lra) ltac:(lra) ltac:(rewrite S1; lra) n) as (st & E & T & H).
  exists st. split; [exact E|]. intros i Hi. destruct (H i (Rabs (pulse6 i * pulse6 i * amp6 i)) (Rabs (pulse6 i * pulse6 i * pulse6 i * amp6 i)) Hi (scalar6 i Hi) (wave_smooth _ _ _ _) (fun t _ => wave_acc _ _ _ t)) as [M _].
  rewrite T in M. replace (2 / 1000 * INR n)%R with (INR n * (2 / 1000))%R by ring. apply Rle_trans with (1 := M). rewrite S1.
  assert (P0 : (0 <= pulse6 i /\ 0 <= amp6 i)%R).
  { assert (PP := PI_RGT_0). do 6 (destruct i as [|i]; [cbn; split; lra|]). lia. }
  set (om := pulse6 i) in *. set (am := amp6 i) in *. assert (P1 : (0 <= om * om)%R) by (apply Rmult_le_pos; apply P0). assert (P2 : (0 <= om * om * am)%R) by (apply Rmult_le_pos; [exact P1|apply P0]).
  assert (P3 : (0 <= om * om * om * am)%R). { replace (om * om * om * am)%R with (om * (om * om * am))%R by ring. apply Rmult_le_pos; [apply P0|exact P2]. }
  rewrite (Rabs_right (om * om * am)), (Rabs_right (om * om * om * am)) by lra. apply Rplus_le_compat.
  - replace (1 - 1 * (2 / 1000) / 2)%R with (999 / 1000)%R by lra. apply Rmult_le_compat_l; [apply pow_le; lra|].
    unfold far_off. rewrite S1. unfold ref6, ref6', wave, wave1. fold om am. rewrite Rmult_0_r, Rplus_0_l.
    replace (vget start6 i - (vget start6 i + am * sin (phase6 i)))%R with (- (am * sin (phase6 i)))%R by ring. rewrite Rabs_Ropp.
    assert (A1 := Rabs_pos (am * sin (phase6 i))). assert (A2 := Rabs_pos (om * am)). apply Rmax_lub; [lra|].
    assert (TR := Rabs_triang (- (am * sin (phase6 i))) (- (om * am * cos (phase6 i) / 1))). unfold Rminus. rewrite !Rabs_Ropp in TR. unfold Rdiv in TR |- *. rewrite Rinv_1, Rmult_1_r in TR |- *.
    assert (CC : (Rabs (om * am * cos (phase6 i)) <= Rabs (om * am))%R).
    { rewrite Rabs_mult. assert (B := COS_bound (phase6 i)). assert (Rabs (cos (phase6 i)) <= 1)%R by (apply Rabs_le; lra). nra. }
    lra.
  - unfold remains. unfold reg8. replace (om * om * om * am)%R with (om * (om * om * am))%R by ring. set (z := (om * om * am)%R) in *.
    assert (Z1 : (0 <= om * z)%R) by (apply Rmult_le_pos; [apply P0|exact P2]). lra.
Qed.
