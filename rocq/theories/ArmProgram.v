(** The manipulator program: class TsidManipulator of exercizes/tsid_manipulator.py ("tm") and the
    loop of exercizes/ex_1_ur5.py ("ex"), with posture and end-effector tasks and hard limits on
    torques and velocities.

    Simplifications: real numbers; any number of turns; the reference of the end-effector is any
    function of time (ex:41-65: offset + amp sin(2 pi f t + phi), with its derivatives); q is conf.q0,
    as when there is no srdf (tm:25-31); viewer, printing and the recorded columns of the end-effector
    (ex:79-97, 102-111) are left out; the bounds of tm:57-71 are computed in every turn even when the
    weight is not positive (nobody reads them then). *)
From Coq Require Import String List Arith Bool ZArith Reals Lia Lra Classical.
From Verif Require Import Scalar Outcome Linalg Constraint Formulation ListUtil FormSpec FormDataSpec FormPhysSpec RSum FormOps FormInv FormInvB FormSafe FormSafe2 FormDecode FormHist FormPhys FormLevels FormMain FormSolver
  Masks MaskReal JointBounds JointSpec JointReal JointLimits JointTask JointTasks JointTasksP JointTasksR FrameTasks FrameTasksP FrameTasksR FrameSetters FrameRefute SoftTasks SoftPlan SoftOrder FormLooks ExactSolver.
From Verif Require Solvers SolverSpec SolverSizes SolverMain SolverRefute JointProgram.
Import ListNotations.
Open Scope string_scope.
Open Scope list_scope.
Open Scope nat_scope.
Local Notation rsum := (@nsum Rnum).

(** * The program *)
(** Variables: t, formulation, the four tasks, solver, q[:, i], v[:, i], the last columns of dv and
    tau, and the columns of v before column i. *)
Record arm := mkArm { a_time : R; a_form : fstate Rnum; a_post : post Rnum; a_ee : se3t Rnum; a_act : actb Rnum; a_jb : jb Rnum; a_solver : Solvers.sst Rnum;
  a_q : vec Rnum; a_v : vec Rnum; a_dv : vec Rnum; a_tau : vec Rnum; a_plot : list (vec Rnum) }.
(** A call that returns; an exception or undefined behaviour ends the program. *)
Definition go {S A} (o : outcome S A) : option S := match o with Ret s _ => Some s | _ => None end.
Section Program.
(** Robot: [dif], [intg], [neu], [mass], [nle] are difference, integrate, neutral, mass and
    nonLinearEffects of Pinocchio, [fk] the placement, velocity, drift and Jacobian of the
    end-effector, [log3] its logarithm; [M0], [H0] what its data holds at first. [ext]: the external
    solver. [jn], [jx], [js], [jf], [jst]: memory that is not initialised. *)
Variables (dif : pdif) (intg : vec Rnum -> vec Rnum -> vec Rnum) (log3 : (nat -> nat -> R) -> nat -> R) (fk : vec Rnum -> vec Rnum -> fdata Rnum)
  (dbg : bool) (nv : nat) (neu : vec Rnum) (mass : vec Rnum -> mat Rnum) (nle : vec Rnum -> vec Rnum -> vec Rnum) (M0 : mat Rnum) (H0 : vec Rnum)
  (ext : Solvers.hqpdata Rnum -> Solvers.fast_code * vec Rnum) (jn : nat -> nat) (jx : vec Rnum) (js : Solvers.junk Rnum) (jf : bool) (jst : Solvers.status).
(** Configuration (ur5_reaching_conf.py:14-37): start, weights, gains, period, mask, frame, limits;
    reference of the end-effector at time t (position, velocity, acceleration). *)
Variables (q0 : vec Rnum) (wp we wt wj kp kpe dt : R) (mask : vec Rnum) (loc : bool) (taumax vmax : vec Rnum) (ref : R -> vec Rnum * vec Rnum * vec Rnum).
Definition all (f : nat -> R) : vec Rnum := @mkVec Rnum nv f.
Definition minus (u : vec Rnum) : vec Rnum := @mkVec Rnum (vlen u) (fun i => - vget u i)%R.
(** What the formulation asks the robot and the tasks (there are no contacts). *)
Definition data (c : nat -> constr Rnum) (q v : vec Rnum) : env Rnum :=
  mkEnv (mass q) (nle q v) (fun _ => (mzero 0 0, vzero 0)) (fun _ => mzero 0 0) (fun _ _ _ => (mzero 0 0, vzero 0, vzero 0)) (fun _ => (mzero 0 0, vzero 0))
    c (fun _ => "") (fun _ => vzero 0).
Definition constraints (p : post Rnum) (x : se3t Rnum) (u : actb Rnum) (b : jb Rnum) (id : nat) : constr Rnum :=
  match id with 0 => t_c p | 1 => h_c (x_h x) | 2 => u_c u | _ => b_c b end.
Local Notation fstep := (@Formulation.step Rnum dbg).
Local Notation pstep := (@post_step Rnum Rtrunc dif).
Local Notation xstep := (@se3_step Rnum Rtrunc log3).
Local Notation ustep := (@actb_step Rnum Rtrunc).
Local Notation bstep := (@jb_step Rnum).
(** tm:37-77. *)
Definition build : option arm :=
  do f <- go (fstep (init nv nv M0 H0) (@Formulation.OCompute Rnum 0%R (data (fun _ => new_eq "" 0 0) q0 (vzero nv))));
  do p <- post_new Rtrunc jn "task-posture" neu (vlen neu) nv nv;
  do p <- go (pstep p (TKp (all (fun _ => kp))));
  do p <- go (pstep p (TKd (all (fun _ => 2 * sqrt kp)%R)));
  do r <- crows (t_c p);
  do f <- go (fstep f (@OAddMotion Rnum 0 "task-posture" (c_kind (t_c p)) r wp 1 0%R));
  do x <- @se3_new Rnum Rtrunc jx "task-ee" nv;
  do x <- go (xstep x (XKp (@mkVec Rnum 6 (fun _ => kpe))));
  do x <- go (xstep x (XKd (@mkVec Rnum 6 (fun _ => 2 * sqrt kpe)%R)));
  do x <- go (xstep x (XMask jx mask));
  do x <- go (xstep x (XLocal loc));
  do r <- crows (h_c (x_h x));
  do f <- go (fstep f (@OAddMotion Rnum 1 "task-ee" (c_kind (h_c (x_h x))) r we 1 0%R));
  do u <- @actb_new Rnum Rtrunc jn "task-actuation-bounds" nv;
  do u <- go (ustep u (UBounds (minus taumax) taumax));
  do r <- crows (u_c u);
  do f <- (if Rltb 0 wt then go (fstep f (@OAddAct Rnum 2 "task-actuation-bounds" (c_kind (u_c u)) r wt 0 0%R)) else Some f);
  do b <- @jb_new Rnum "task-joint-bounds" nv nv dt;
  do b <- go (bstep b (JVel (minus vmax) vmax));
  do r <- crows (b_c b);
  do f <- (if Rltb 0 wj then go (fstep f (@OAddMotion Rnum 3 "task-joint-bounds" (c_kind (b_c b)) r wj 0 0%R)) else Some f);
  do p <- go (pstep p (TRef q0 (vzero nv) (vzero nv)));
  do s <- Solvers.resize Solvers.Fast dbg js (Solvers.solver_new Solvers.Fast js jf jst) (nVar f) (Z.to_nat (f_eq f)) (Z.to_nat (f_in f));
  Some (mkArm 0 f p x u b s q0 (vzero nv) (vzero nv) (vzero nv) []).
(** ex:60-68: reference and computeProblemData. *)
Record posed := mkPosed { p_post : post Rnum; p_aim : se3t Rnum; p_ee : se3t Rnum; p_act : actb Rnum; p_jb : jb Rnum; p_form : fstate Rnum; p_hqp : Solvers.hqpdata Rnum }.
Definition pose (st : arm) : option posed :=
  let '(val, der, sec) := ref (a_time st) in
  do x1 <- go (xstep (a_ee st) (XRef val der sec));
  do p <- go (pstep (a_post st) (TCompute (a_q st) (a_v st)));
  do x2 <- go (xstep x1 (XCompute (fk (a_q st) (a_v st))));
  do u <- go (ustep (a_act st) UCompute);
  do b <- go (bstep (a_jb st) (JCompute (a_v st)));
  do f <- go (fstep (a_form st) (@Formulation.OCompute Rnum (a_time st) (data (constraints p x2 u b) (a_q st) (a_v st))));
  do P <- JointProgram.fetch (hqp f);
  Some (mkPosed p x1 x2 u b f P).
(** One turn of the loop, ex:57-100; the program leaves the loop when the status is not 0.
    integrate_dv (tm:111-115) updates v[:, i] in place before it is returned as v[:, i + 1]. *)
Definition turn (st : arm) : option arm :=
  match pose st with
  | Some c =>
    match Solvers.solve Solvers.Fast dbg js (a_solver st) (p_hqp c) (fst (ext (p_hqp c))) (snd (ext (p_hqp c))) with
    | Ret s1 (Solvers.St_optimal, y) =>
      match fstep (p_form c) (@OGet Rnum GTau y) with
      | Ret f2 (OutVec tau) =>
        match fstep f2 (@OGet Rnum GAcc y) with
        | Ret f3 (OutVec dv) =>
          let v_mean := all (fun i => vget (a_v st) i + / 2 * dt * vget dv i)%R in
          let v' := all (fun i => vget (a_v st) i + dt * vget dv i)%R in
          Some (mkArm (a_time st + dt) f3 (p_post c) (p_ee c) (p_act c) (p_jb c) s1 (intg (a_q st) (all (fun i => dt * vget v_mean i)%R)) v' dv tau (a_plot st ++ [v']))
        | _ => None
        end
      | _ => None
      end
    | _ => None
    end
  | None => None
  end.
Fixpoint after_turns (n : nat) : option arm :=
  match n with 0 => build | S n' => do st <- after_turns n'; turn st end.

(** * Specification *)
(** What Pinocchio guarantees about sizes. *)
Definition robot_fine : Prop := respects dif /\ reads9 log3 /\ FormMain.robot_ok nv M0 H0 /\ (forall q, vlen q = vlen neu -> mrows (mass q) = nv /\ mcols (mass q) = nv) /\
  (forall q v, vlen q = vlen neu -> vlen v = nv -> vlen (nle q v) = nv) /\ (forall q u, vlen q = vlen neu -> vlen u = nv -> vlen (intg q u) = vlen neu).
(** The configuration makes sense. *)
Definition conf_fine : Prop := vlen q0 = vlen neu /\ (0 <= wp)%R /\ (0 <= we)%R /\ (0 < wt)%R /\ (0 < wj)%R /\ (0 < dt)%R /\ vlen mask = 6 /\ mask01 mask /\ vlen taumax = nv /\ vlen vmax = nv /\
  forall t, vlen (fst (fst (ref t))) = 12 /\ vlen (snd (fst (ref t))) = 6 /\ vlen (snd (ref t)) = 6.
(** What the tasks ask for.  Posture: back to q0.  End-effector: the frame [fk q v] follows the
    reference at time [t], seen in the frame itself or in the axes of the world. *)
Definition pull (q v : vec Rnum) (i : nat) : R := (- kp * dif q0 q i - 2 * sqrt kp * vget v i)%R.
Definition six (l a : nat -> R) (i : nat) : R := if i <? 3 then l i else a (i - 3).
Definition ee_acc (q v : vec Rnum) (z : nat -> R) : nat -> R :=
  let d := fk q v in
  let a := accel nv (d_J d) (d_a d) z in
  if loc then a else six (rot (d_R d) a) (rot (d_R d) (ang a)).
Definition ee_wish (t : R) (q v : vec Rnum) (i : nat) : R :=
  let d := fk q v in
  let Q := d_R d in
  let pd := vget (fst (fst (ref t))) in
  let Qd := fun a b => vget (fst (fst (ref t))) (3 + (3 * b + a)) in
  let vd := vget (snd (fst (ref t))) in
  let ad := vget (snd (ref t)) in
  if loc then
    (kpe * six (rot (tr Q) (vminus pd (d_p d))) (rot_error log3 Q Qd) i + 2 * sqrt kpe * (six (rot (tr Q) vd) (rot (tr Q) (ang vd)) i - d_v d i)
     + six (rot (tr Q) ad) (rot (tr Q) (ang ad)) i)%R
  else
    (kpe * six (rot Q (rot (tr Q) (vminus pd (d_p d)))) (rot Q (rot_error log3 Q Qd)) i + 2 * sqrt kpe * (vd i - six (rot Q (d_v d)) (rot Q (ang (d_v d))) i) + ad i)%R.
(** Weighted errors of acceleration [z], and the regularisation. *)
Definition cost (t : R) (q v : vec Rnum) (z : nat -> R) : R :=
  (wp * rsum nv (fun i => (z i - pull q v i) ^ 2) + we * rsum 6 (fun i => vget mask i * (ee_acc q v z i - ee_wish t q v i) ^ 2) + reg8 * rsum nv (fun i => z i ^ 2))%R.
(** Torque that acceleration [z] needs. *)
Definition torque (q v : vec Rnum) (z : nat -> R) (i : nat) : R := (rsum nv (fun j => mget (mass q) i j * z j) + vget (nle q v) i)%R.
(** Accelerations the limits allow in state (q, v). *)
Definition admissible (q v : vec Rnum) (z : nat -> R) : Prop := forall i, i < nv ->
  (- vget vmax i <= vget v i + dt * z i <= vget vmax i)%R /\ (- 10 ^ 10 <= z i <= 10 ^ 10)%R /\ (- vget taumax i <= torque q v z i <= vget taumax i)%R.

(** The best of them. *)
Definition chosen (t : R) (q v : vec Rnum) (z : nat -> R) : Prop :=
  admissible q v z /\ forall z', admissible q v z' -> (cost t q v z <= cost t q v z')%R.

(** * Proofs *)
Local Notation asc := (fun _ : nat => "").
Local Notation start := (init nv nv M0 H0).
Definition edim : nat := mdim Rtrunc mask.
Definition cells : list (string * ckind * nat * nat) :=
  [("base-dynamics", CEq, nv - nv, nv); ("task-posture", CEq, nv, nv); ("task-ee", CEq, edim, nv); ("task-actuation-bounds", CIneq, nv, nv); ("task-joint-bounds", CIneq, nv, nv)].
Definition levels : list (list (car Rnum * nat)) := [[(1%R : car Rnum, 0); (wt : car Rnum, 3); (wj : car Rnum, 4)]; [(wp : car Rnum, 1); (we : car Rnum, 2)]].
Definition motions : list tlevel := [mkTl 0 "task-posture" 1 1; mkTl 1 "task-ee" 1 2; mkTl 3 "task-joint-bounds" 0 4].
Definition acts : list tlevel := [mkTl 2 "task-actuation-bounds" 0 3].
Record inv (n : nat) (st : arm) : Prop := mkInv {
  iv_time : a_time st = (INR n * dt)%R;
  iv_looks : looks dbg nv M0 H0 (a_form st) cells levels motions acts;
  iv_post : tmade Rtrunc dif "task-posture" neu (vlen neu) nv nv (a_post st); iv_pmask : t_mask (a_post st) = all (fun _ => 1%R);
  iv_kp : t_kp (a_post st) = all (fun _ => kp); iv_kd : t_kd (a_post st) = all (fun _ => 2 * sqrt kp)%R;
  iv_val : t_val (a_post st) = q0; iv_der : t_der (a_post st) = vzero nv; iv_sec : t_sec (a_post st) = vzero nv;
  iv_ee : @se3_made Rnum Rtrunc log3 "task-ee" nv (a_ee st);
  iv_econf : (x_kp (a_ee st), x_kd (a_ee st), x_local (a_ee st), x_mask (a_ee st)) = (@mkVec Rnum 6 (fun _ => kpe), @mkVec Rnum 6 (fun _ => 2 * sqrt kpe)%R, loc, mask);
  iv_act : umade Rtrunc "task-actuation-bounds" nv (a_act st); iv_umask : u_mask (a_act st) = all (fun _ => 1%R);
  iv_lb : c_lb (u_c (a_act st)) = minus taumax; iv_ub : c_ub (u_c (a_act st)) = taumax;
  iv_jb : jmade "task-joint-bounds" nv nv (a_jb st); iv_dt : b_dt (a_jb st) = dt; iv_vlb : b_vlb (a_jb st) = minus vmax; iv_vub : b_vub (a_jb st) = vmax;
  iv_alb : forall i, vget (b_alb (a_jb st)) i = (- 10 ^ 10)%R; iv_aub : forall i, vget (b_aub (a_jb st)) i = (10 ^ 10)%R;
  iv_solver : SolverSizes.solver_state Solvers.Fast dbg (a_solver st);
  iv_q : vlen (a_q st) = vlen neu; iv_v : vlen (a_v st) = nv }.
Hypotheses (HR : robot_fine) (HC : conf_fine).
Lemma ones_actives : actives (all (fun _ => 1%R)) = seq 0 nv.
Proof. apply MaskReal.ones_actives. intros i _. reflexivity. Qed.
Lemma made_post p o p' : tmade Rtrunc dif "task-posture" neu (vlen neu) nv nv p -> tgood Rtrunc p o -> pstep p o = Ret p' tt -> tmade Rtrunc dif "task-posture" neu (vlen neu) nv nv p'.
Proof. intros (jk & s00 & EE & RR) G E. exists jk, s00. split; [exact EE|]. eapply reach_step; [exact RR|exact G|rewrite E; reflexivity]. Qed.
Lemma post_size p : tmade Rtrunc dif "task-posture" neu (vlen neu) nv nv p -> t_mask p = all (fun _ => 1%R) -> c_kind (t_c p) = CEq /\ crows (t_c p) = Some nv /\ mcols (c_mat (t_c p)) = nv.
Proof.
  intros HM EM. assert (J := tmade_inv Rtrunc dif good_ones_R _ _ _ _ _ _ (Nat.le_refl nv) (Nat.le_refl (vlen neu)) HM).
  assert (RO := ti_rows _ _ _ _ _ _ _ J). destruct RO as (_ & _ & _ & [R1 _] & R2 & _). assert (V := ti_vec _ _ _ _ _ _ _ J). rewrite EM, ones_actives, seq_length in R1, V.
  assert (KD := ti_kind _ _ _ _ _ _ _ J). unfold crows. rewrite KD, R1, V, Nat.eqb_refl. auto.
Qed.
Lemma ee_size x : @se3_made Rnum Rtrunc log3 "task-ee" nv x -> x_mask x = mask -> c_kind (h_c (x_h x)) = CEq /\ crows (h_c (x_h x)) = Some edim /\ mcols (c_mat (h_c (x_h x))) = nv.
Proof.
  intros HM EM. destruct (se3_inv _ _ _ _ _ HM) as [_ _ _ [K1 K2 K3 K4 _ _ _ _ _]]. rewrite EM in K2, K4. unfold crows. rewrite K1, K2, K4, Nat.eqb_refl. auto.
Qed.
Lemma act_size u : umade Rtrunc "task-actuation-bounds" nv u -> u_mask u = all (fun _ => 1%R) -> c_kind (u_c u) = CIneq /\ crows (u_c u) = Some nv /\ mcols (c_mat (u_c u)) = nv.
Proof.
  intros HM EM. destruct (umade_inv Rtrunc good_ones_R _ _ _ HM) as [_ (_ & _ & _ & [R1 _] & R2 & _) _ KD L U]. rewrite EM, ones_actives, seq_length in *.
  unfold crows. rewrite KD, R1, L, U, Nat.eqb_refl. auto.
Qed.
Lemma jb_size b : @jmade Rnum "task-joint-bounds" nv nv b -> c_kind (b_c b) = CBound /\ crows (b_c b) = Some nv.
Proof.
  intros HM. destruct (jmade_inv _ _ _ _ (Nat.le_refl nv) HM) as (_ & _ & _ & _ & _ & _ & _ & _ & KD & _ & L & U & _).
  split; [exact KD|]. unfold crows. rewrite KD, L, U, Nat.eqb_refl. reflexivity.
Qed.

Lemma data_fits f p x u b q v : looks dbg nv M0 H0 f cells levels motions acts -> vlen q = vlen neu -> vlen v = nv ->
  (c_kind (t_c p) = CEq /\ crows (t_c p) = Some nv /\ mcols (c_mat (t_c p)) = nv) ->
  (c_kind (h_c (x_h x)) = CEq /\ crows (h_c (x_h x)) = Some edim /\ mcols (c_mat (h_c (x_h x))) = nv) ->
  (c_kind (u_c u) = CIneq /\ crows (u_c u) = Some nv /\ mcols (c_mat (u_c u)) = nv) ->
  (c_kind (b_c b) = CBound /\ crows (b_c b) = Some nv) ->
  f_nu f = 0 -> env_ok f (data (constraints p x u b) q v).
Proof.
  intros L Lq Lv (P1 & P2 & P3) (X1 & X2 & X3) (U1 & U2 & U3) (B1 & B2) Nu. destruct HR as (_ & _ & _ & HM & HN & _). destruct L as [L1 L2 L3 L4 L5 L6 L7 L8 L9 L10 L11].
  assert (AN : forall t kd r, announced f t kd r -> exists nm c, nth_error cells (tl_cstr t) = Some (nm, kd, r, c)).
  { intros t kd r (k & Hk & <- & <-). rewrite <- L2. unfold shapes. rewrite nth_error_map, Hk. unfold shape. cbn [option_map]. eauto. }
  unfold env_ok, data. cbn [e_mass e_nle e_cmotion e_gen e_cforce e_creg e_task e_assoc e_meas]. rewrite L4, L5, L6, L7, L8, L10, Nu, Nat.sub_0_r.
  split; [apply HM; assumption|]. split; [apply HM; assumption|]. split; [apply HN; assumption|]. split; [contradiction|]. split; [contradiction|]. split; [|split; [contradiction|]].
  - intros t kd r Ht Ha. destruct (AN t kd r Ha) as (nm & c & E). destruct Ht as [<-|[<-|[<-|[]]]]; cbn in E; injection E as _ <- <- _; cbn [tl_task constraints]; unfold task_data_ok; rewrite ?P1, ?X1, ?B1; auto.
  - intros t kd r Ht Ha. destruct (AN t kd r Ha) as (nm & c & E). destruct Ht as [<-|[]]; cbn in E; injection E as _ <- <- _; cbn [tl_task constraints]; unfold task_data_ok; rewrite U1; auto.
Qed.
Lemma jmade_step b o b' : @jmade Rnum "task-joint-bounds" nv nv b -> bstep b o = Ret b' tt -> @jmade Rnum "task-joint-bounds" nv nv b'.
Proof. intros (h & s0 & E & RR) ES. exists h, s0. split; [exact E|]. eapply reach_step; [exact RR|exact I|rewrite ES; reflexivity]. Qed.
Lemma build_ok : exists st, build = Some st /\ inv 0 st /\ a_q st = q0 /\ a_v st = vzero nv /\ a_plot st = [].
Proof.
  assert (HR' := HR). destruct HR' as (HD & HL & R0 & HM & HN & HI). assert (HC' := HC). destruct HC' as (Q0 & Wp & We & Wt & Wj & Hdt & Lm & M01 & Ltm & Lvm & Href). unfold build.
  destruct (looks_compute dbg nv M0 H0 R0 start _ _ _ _ 0%R (data (fun _ => new_eq "" 0 0) q0 (vzero nv)) (looks_init dbg nv M0 H0)) as (f1 & C1 & _ & L1).
  { unfold env_ok, data, init. cbn. split; [apply HM; assumption|]. split; [apply HM; assumption|]. split; [apply HN; [assumption|reflexivity]|]. repeat split; contradiction. }
  { reflexivity. }
  rewrite C1. cbn [go obind]. destruct (post_new_ok Rtrunc good_ones_R jn "task-posture" neu (vlen neu) nv nv) as (p0 & E0 & _ & MK); [lia|lia|]. rewrite E0. cbn [obind].
  assert (P0 : tmade Rtrunc dif "task-posture" neu (vlen neu) nv nv p0) by (exists jn, p0; split; [exact E0|apply reach_init]).
  destruct (proj1 (post_setters Rtrunc dif good_ones_R _ _ _ _ _ p0 (Nat.le_refl nv) (Nat.le_refl _) P0) (all (fun _ => kp))) as [SA _]. destruct (SA eq_refl) as (p1 & E1 & X1). rewrite E1. cbn [go obind].
  assert (P1 := made_post _ (TKp _) _ P0 I E1).
  destruct (proj1 (proj2 (post_setters Rtrunc dif good_ones_R _ _ _ _ _ p1 (Nat.le_refl nv) (Nat.le_refl _) P1)) (all (fun _ => 2 * sqrt kp)%R)) as [SB _]. destruct (SB eq_refl) as (p2 & E2 & X2). rewrite E2. cbn [go obind].
  assert (P2 := made_post _ (TKd _) _ P1 I E2).
  destruct (proj2 (proj2 (post_setters Rtrunc dif good_ones_R _ _ _ _ _ p2 (Nat.le_refl nv) (Nat.le_refl _) P2)) q0 (vzero nv) (vzero nv)) as [SC _]. destruct (SC ltac:(auto)) as (p3 & E3 & X3).
  assert (P3 := made_post _ (TRef _ _ _) _ P2 I E3).
  destruct X1 as (KP1 & KD1 & _ & _ & _ & MK1 & _), X2 as (KP2 & KD2 & _ & _ & _ & MK2 & TC2), X3 as (KP3 & KD3 & V3 & D3 & A3 & MK3 & _).
  destruct (post_size p2 P2) as (K1 & K2 & K3); [rewrite MK2, MK1, MK; reflexivity|]. rewrite K2, K1. cbn [obind].
  destruct (looks_add dbg nv M0 H0 f1 _ _ _ _ 0 "task-posture" CEq nv wp 1 [] L1 eq_refl eq_refl Wp eq_refl) as [(f2 & A2 & L2) _]. rewrite A2. cbn [go obind].
  destruct (se3_safe log3 jx "task-ee" nv) as (x0 & EX0 & _). rewrite EX0. cbn [obind].
  assert (X0 : se3_made Rtrunc log3 "task-ee" nv x0) by (exists jx, x0; split; [exact EX0|constructor]).
  destruct (proj1 (se3_setters Rtrunc log3 x0) (@mkVec Rnum 6 (fun _ => kpe)) eq_refl) as (x1 & EX1 & Y1 & _). rewrite EX1. cbn [go obind].
  assert (XM1 := se3_go log3 _ _ _ _ _ X0 EX1).
  destruct (proj1 (proj2 (se3_setters Rtrunc log3 x1)) (@mkVec Rnum 6 (fun _ => 2 * sqrt kpe)%R) eq_refl) as (x2 & EX2 & Y2 & _). rewrite EX2. cbn [go obind].
  assert (XM2 := se3_go log3 _ _ _ _ _ XM1 EX2).
  assert (EX3 : exists x3, xstep x2 (XMask jx mask) = Ret x3 tt).
  { destruct (se3_inv _ _ _ _ _ XM2) as [I1 I2 I3 I4]. cbn [se3_step]. destruct (proj1 (mask_def Rtrunc jx (x_nv x2) mask (x_h x2) (hi_kind _ _ _ _ _ I4))) as [h E]; [apply mdim_01; exact M01|]. rewrite E. eauto. }
  destruct EX3 as (x3 & EX3). rewrite EX3. cbn [go obind]. assert (X3 := se3_go log3 _ _ _ _ _ XM2 EX3).
  destruct (se3_setters Rtrunc log3 x2) as (_ & _ & _ & _ & SM & _). destruct (SM _ _ _ EX3) as [Y3 _].
  destruct (se3_setters Rtrunc log3 x3) as (_ & _ & SL & _). destruct (SL loc) as (x4 & EX4 & Y4 & _). rewrite EX4. cbn [go obind].
  assert (X4 := se3_go log3 _ _ _ _ _ X3 EX4).
  assert (Y : (x_kp x4, x_kd x4, x_local x4, x_mask x4) = (@mkVec Rnum 6 (fun _ => kpe), @mkVec Rnum 6 (fun _ => 2 * sqrt kpe)%R, loc, mask)).
  { unfold se3_conf in *. injection Y1 as y1 y2 y3 y4. injection Y2 as y5 y6 y7 y8. injection Y3 as y9 y10 y11 y12. injection Y4 as y13 y14 y15 y16. congruence. }
  destruct (ee_size x4 X4) as (J1 & J2 & J3); [injection Y; auto|]. rewrite J2, J1. cbn [obind].
  destruct (looks_add dbg nv M0 H0 f2 _ _ _ _ 1 "task-ee" CEq edim we 1 [(wp : car Rnum, 1)] L2 eq_refl eq_refl We eq_refl) as [(f3 & A3' & L3) _]. rewrite A3'. cbn [go obind].
  destruct (actb_new_ok Rtrunc good_ones_R jn "task-actuation-bounds" nv) as (u0 & EU0 & UI & UM). rewrite EU0. cbn [obind].
  assert (U0 : umade Rtrunc "task-actuation-bounds" nv u0) by (exists jn, u0; split; [exact EU0|constructor]).
  destruct (actb_set Rtrunc "task-actuation-bounds" nv u0 (minus taumax) taumax UI) as (u1 & EU1 & _ & UM1 & UL & UU).
  { rewrite UM. change (mkVec nv (fun _ => @n1 Rnum)) with (all (fun _ => 1%R)). rewrite ones_actives, seq_length. exact Ltm. }
  { rewrite UM. change (mkVec nv (fun _ => @n1 Rnum)) with (all (fun _ => 1%R)). rewrite ones_actives, seq_length. exact Ltm. }
  rewrite EU1. cbn [go obind]. assert (U1 : umade Rtrunc "task-actuation-bounds" nv u1) by (apply (umade_step _ _ u0 (UBounds (minus taumax) taumax)); [exact U0|exact I|rewrite EU1; reflexivity]).
  destruct (act_size u1 U1) as (G1 & G2 & G3); [rewrite UM1, UM; reflexivity|]. rewrite G2, G1. cbn [obind].
  rewrite (proj2 (Rltb_true 0 wt) Wt), (proj2 (Rltb_true 0 wj) Wj).
  destruct (looks_add dbg nv M0 H0 f3 _ _ _ _ 2 "task-actuation-bounds" CIneq nv wt 0 [(1%R : car Rnum, 0)] L3 eq_refl eq_refl (Rlt_le _ _ Wt) eq_refl) as [_ (f4 & A4 & L4)]. rewrite A4. cbn [go obind].
  assert (EB0 : exists b0, @jb_new Rnum "task-joint-bounds" nv nv dt = Some b0 /\ b_na b0 = nv /\ b_dt b0 = dt /\ (forall i, vget (b_alb b0) i = (- 10 ^ 10)%R) /\ (forall i, vget (b_aub b0) i = (10 ^ 10)%R)).
  { unfold jb_new. replace (@nltb Rnum n0 dt) with true by (symmetry; apply Rltb_true; exact Hdt). eexists. split; [reflexivity|]. cbn [b_na b_dt b_alb b_aub vget]. split; [reflexivity|]. split; [reflexivity|].
    rewrite huge_R, mhuge_R. split; intros _; unfold Rnum; cbn; lra. }
  destruct EB0 as (b0 & EB0 & BN & BD & BL & BU). rewrite EB0. cbn [obind].
  assert (B0 : @jmade Rnum "task-joint-bounds" nv nv b0) by (exists dt, b0; split; [exact EB0|constructor]).
  assert (EB1 : exists b1, bstep b0 (JVel (minus vmax) vmax) = Ret b1 tt /\ b_dt b1 = dt /\ b_vlb b1 = minus vmax /\ b_vub b1 = vmax /\ b_alb b1 = b_alb b0 /\ b_aub b1 = b_aub b0).
  { cbn [jb_step]. unfold minus at 1. cbn [vlen]. rewrite Lvm, BN, Nat.eqb_refl. cbn [andb]. eexists. split; [reflexivity|]. cbn [b_dt b_vlb b_vub b_alb b_aub]. auto. }
  destruct EB1 as (b1 & EB1 & BD1 & BVL & BVU & BA1 & BA2). rewrite EB1. cbn [go obind]. assert (B1 := jmade_step _ _ _ B0 EB1).
  destruct (jb_size b1 B1) as (H1 & H2). rewrite H2, H1. cbn [obind].
  destruct (looks_add dbg nv M0 H0 f4 _ _ _ _ 3 "task-joint-bounds" CBound nv wj 0 [(1%R : car Rnum, 0); (wt : car Rnum, 3)] L4 eq_refl eq_refl (Rlt_le _ _ Wj) eq_refl) as [(f5 & A5 & L5) _]. rewrite A5. cbn [go obind].
  rewrite E3. cbn [go obind].
  destruct (SolverSizes.resize_total Solvers.Fast dbg js (Solvers.solver_new Solvers.Fast js jf jst) (nVar f5) (Z.to_nat (f_eq f5)) (Z.to_nat (f_in f5)) I) as (s1 & ES). rewrite ES. cbn [obind].
  eexists. split; [reflexivity|]. split; [|split; [reflexivity|split; reflexivity]]. constructor; cbn [a_time a_form a_post a_ee a_act a_jb a_solver a_q a_v].
  - cbn. lra.
  - exact L5.
  - exact P3.
  - rewrite MK3, MK2, MK1, MK. reflexivity.
  - rewrite KP3, KP2, KP1. reflexivity.
  - rewrite KD3, KD2. reflexivity.
  - exact V3.
  - exact D3.
  - exact A3.
  - exact X4.
  - exact Y.
  - exact U1.
  - rewrite UM1, UM. reflexivity.
  - exact UL.
  - exact UU.
  - exact B1.
  - exact BD1.
  - exact BVL.
  - exact BVU.
  - intros i. rewrite BA1. apply BL.
  - intros i. rewrite BA2. apply BU.
  - exists js, jf, jst. eapply (reach_step _ _ _ _ (Solvers.SResize Solvers.Fast (nVar f5) (Z.to_nat (f_eq f5)) (Z.to_nat (f_in f5)) js)); [constructor|exact I|]. cbn [Solvers.sstep]. rewrite ES. reflexivity.
  - exact Q0.
  - reflexivity.
Qed.
(** ** Costs of the two tasks *)
Lemma gap_rows (c : constr Rnum) z : c_kind c = CEq -> gap c z = rsum (vlen (c_vec c)) (fun j => (lhs c z j - vget (c_vec c) j) ^ 2)%R.
Proof. intros K. unfold gap, eq_gap, lhs. rewrite K. apply rsum_ext. intros j _. unfold Rnum; cbn [car]; ring. Qed.
Lemma post_cost p p' q v : tmade Rtrunc dif "task-posture" neu (vlen neu) nv nv p -> t_mask p = all (fun _ => 1%R) -> t_kp p = all (fun _ => kp) -> t_kd p = all (fun _ => 2 * sqrt kp)%R ->
  t_val p = q0 -> t_der p = vzero nv -> t_sec p = vzero nv -> vlen v = nv -> pstep p (TCompute q v) = Ret p' tt -> tmade Rtrunc dif "task-posture" neu (vlen neu) nv nv p' -> t_mask p' = t_mask p ->
  forall z, gap (t_c p') z = rsum nv (fun i => (z i - pull q v i) ^ 2)%R.
Proof.
  intros PM EM EK ED EV E1 E2 Lv EC PM' EM' z. assert (HR' := HR). destruct HR' as (HD & _). assert (HC' := HC). destruct HC' as (Q0 & _).
  assert (I := tmade_inv Rtrunc dif good_ones_R _ _ _ _ _ _ (Nat.le_refl nv) (Nat.le_refl (vlen neu)) PM').
  assert (RR := ti_rows _ _ _ _ _ _ _ I). assert (KD := ti_kind _ _ _ _ _ _ _ I). assert (LV := ti_vec _ _ _ _ _ _ _ I). rewrite EM', EM, ones_actives, seq_length in LV. rewrite EM', EM in RR.
  assert (LH : forall y j, j < nv -> lhs (t_c p') y j = y j).
  { intros y j Hj. rewrite (rows_lhs (nv - nv) (fun _ => n1) nv nv (all (fun _ => 1%R)) _ _ _ y j j RR); [|rewrite KD; discriminate|lia|].
    - rewrite Nat.sub_diag. cbn [Nat.add]. change (@n1 Rnum) with 1%R. apply Rmult_1_l.
    - rewrite ones_actives. rewrite (nth_error_nth' _ 0) by (rewrite seq_length; exact Hj). rewrite seq_nth by exact Hj. reflexivity. }
  assert (ST : sat (t_c p') (vget (c_vec (t_c p')))) by (unfold sat; rewrite KD; intros j Hj; apply LH; lia).
  assert (MN := proj1 (post_meaning dif "task-posture" neu (vlen neu) nv nv p q v p' HD (Nat.le_refl nv) (Nat.le_refl _) PM EC _) ST).
  rewrite (gap_rows _ _ KD), LV. apply rsum_ext. intros i Hi. rewrite LH by exact Hi. replace (vget (c_vec (t_c p')) i) with (pull q v i); [reflexivity|].
  assert (ON : active (t_mask p) i) by (rewrite EM; unfold active, all; cbn; lra). specialize (MN i Hi ON). rewrite Nat.sub_diag in MN. cbn [Nat.add] in MN. rewrite MN.
  rewrite EK, ED, E1, E2, EV. unfold all, vzero, pull, last_of. cbn [vget]. rewrite Lv, Nat.sub_diag. cbn [Nat.add]. change (@n0 Rnum) with 0%R.
  replace (dif (ref_config neu q0) q i) with (dif q0 q i); [lra|]. apply HD. split; [exact Q0|]. intros k Hk. unfold ref_config. cbn [vget]. rewrite Q0, Nat.sub_diag, Nat.sub_0_r. reflexivity.
Qed.
Lemma sum_ons (m : vec Rnum) (f g : nat -> R) : mask01 m -> forall n, n <= vlen m -> (forall j i, nth_error (ons n m) j = Some i -> g j = f i) ->
  rsum (List.length (ons n m)) g = rsum n (fun i => vget m i * f i)%R.
Proof.
  intros H. induction n as [|n IH]; intros Hn G; [reflexivity|]. rewrite rsum_S. rewrite ons_S in *. assert (Hm := H n ltac:(lia)). destruct (neqb (vget m n) n1) eqn:E.
  - rewrite app_length. cbn [List.length]. rewrite Nat.add_1_r, rsum_S, IH; [|lia|].
    + apply Reqb_true in E. rewrite (G _ n); [rewrite E; f_equal; symmetry; exact (Rmult_1_l (f n))|]. rewrite nth_error_app2, Nat.sub_diag by lia. reflexivity.
    + intros j i Hj. apply G. rewrite nth_error_app1; [exact Hj|apply nth_error_Some; congruence].
  - rewrite app_nil_r in *. rewrite IH; [|lia|exact G]. destruct Hm as [Z|Z]; [|congruence]. apply Reqb_true in Z. rewrite Z. transitivity (rsum n (fun i => vget m i * f i) + 0 * f n)%R; [rewrite Rmult_0_l, Rplus_0_r; reflexivity|reflexivity].
Qed.
Lemma ee_sides x d z i : i < 6 -> x_local x = loc -> x_kp x = @mkVec Rnum 6 (fun _ => kpe) -> x_kd x = @mkVec Rnum 6 (fun _ => 2 * sqrt kpe)%R ->
  forall t q v, d = fk q v -> x_pd x = vget (fst (fst (ref t))) -> x_Rd x = (fun a b => vget (fst (fst (ref t))) (3 + (3 * b + a))) -> x_vd x = vget (snd (fst (ref t))) -> x_ad x = vget (snd (ref t)) ->
  accel nv (@se3_J Rnum x d) (@se3_drift Rnum x d) z i = ee_acc q v z i /\ @se3_ades Rnum log3 x d i = ee_wish t q v i.
Proof.
  intros Hi XL XK XD t q v -> X1 X2 X3 X4. assert (HR' := HR). destruct HR' as (_ & HL & _). set (d := fk q v).
  assert (IX : (i < 3) \/ exists k, k < 3 /\ i = 3 + k) by (destruct (lt_dec i 3); [left; assumption|right; exists (i - 3); lia]).
  unfold ee_acc, ee_wish, se3_J, se3_drift, se3_ades, se3_pe, se3_ve. fold d. rewrite XL, XK, XD, X1, X2, X3, X4. cbn [vget].
  destruct IX as [Hl|(k & Hk & ->)].
  - destruct loc; unfold six; replace (i <? 3) with true by (symmetry; apply Nat.ltb_lt; exact Hl); (split; [try reflexivity|]).
    + rewrite err_lin, !inv_lin by exact Hl. unfold Rnum; cbn; ring.
    + rewrite accel_lin by exact Hl. reflexivity.
    + rewrite !act_lin by exact Hl. rewrite (rot_ext _ _ (rot (tr (d_R d)) (vminus (vget (fst (fst (ref t)))) (d_p d))) i) by (intros k Hk; apply err_lin; exact Hk). unfold Rnum; cbn; ring.
  - destruct loc; unfold six; replace (3 + k <? 3) with false by (symmetry; apply Nat.ltb_ge; lia); replace (3 + k - 3) with k by lia; (split; [try reflexivity|]).
    + rewrite err_ang, !inv_ang by assumption. unfold Rnum; cbn; ring.
    + rewrite accel_ang by exact Hk. reflexivity.
    + rewrite !act_ang by exact Hk. rewrite (rot_ext _ _ (rot_error log3 (d_R d) (fun a b => vget (fst (fst (ref t))) (3 + (3 * b + a)))) k) by (intros j Hj; unfold ang; apply err_ang; assumption). unfold Rnum; cbn; ring.
Qed.
Lemma ee_cost x x' t q v : @se3_made Rnum Rtrunc log3 "task-ee" nv x ->
  (x_kp x, x_kd x, x_local x, x_mask x) = (@mkVec Rnum 6 (fun _ => kpe), @mkVec Rnum 6 (fun _ => 2 * sqrt kpe)%R, loc, mask) ->
  x_pd x = vget (fst (fst (ref t))) -> x_Rd x = (fun a b => vget (fst (fst (ref t))) (3 + (3 * b + a))) -> x_vd x = vget (snd (fst (ref t))) -> x_ad x = vget (snd (ref t)) ->
  xstep x (XCompute (fk q v)) = Ret x' tt ->
  forall z, gap (h_c (x_h x')) z = rsum 6 (fun i => vget mask i * (ee_acc q v z i - ee_wish t q v i) ^ 2)%R.
Proof.
  intros XM XC X1 X2 X3 X4 ES z. injection XC as C1 C2 C3 C4. assert (HC' := HC). destruct HC' as (_ & _ & _ & _ & _ & _ & Lm & M01 & _).
  destruct (se3_done _ _ _ _ _ _ _ XM ES) as (_ & _ & _ & _ & _ & _ & _ & _ & HI & _ & _ & ROW). rewrite C4 in *. destruct HI as [K1 K2 K3 K4 _ _ _ _ _].
  rewrite (gap_rows _ _ K1), K4. destruct (mdim_01 mask M01) as [-> _]. rewrite Lm. apply (sum_ons mask (fun i => (ee_acc q v z i - ee_wish t q v i) ^ 2)%R); [exact M01|lia|].
  intros j i Hj. destruct (ROW j i Hj) as (RJ & RB & _). assert (Hi : i < 6) by (apply (ons_on 6 mask i), nth_error_In with j; exact Hj).
  destruct (ee_sides x (fk q v) z i Hi C3 C1 C2 t q v eq_refl X1 X2 X3 X4) as [<- <-]. rewrite RB. unfold lhs. rewrite K1, K3. unfold accel.
  rewrite (rsum_ext nv _ (fun c => se3_J x (fk q v) i c * z c)%R) by (intros c _; rewrite RJ; reflexivity). unfold Rnum; cbn; ring.
Qed.
(** ** One turn *)
Lemma looks_level f n (c : nat) nm kd r k : looks dbg nv M0 H0 f cells levels motions acts -> nth_error cells n = Some (nm, kd, r, k) ->
  exists g, nth_error (f_heap f) n = Some g /\ c_kind g = kd /\ c_name g = nm.
Proof.
  intros L H. rewrite <- (lk_shapes _ _ _ _ _ _ _ _ _ L) in H. unfold shapes in H. rewrite nth_error_map in H. destruct (nth_error (f_heap f) n) as [g|]; [|discriminate]. cbn in H. injection H as <- <- _ _. eauto.
Qed.
Lemma nu_zero f : looks dbg nv M0 H0 f cells levels motions acts -> f_nu f = 0.
Proof. intros L. destruct (dims_reach dbg _ _ _ _ _ _ (lk_reach _ _ _ _ _ _ _ _ _ L)) as [_ E]. rewrite E. apply Nat.sub_diag. Qed.
Lemma weights f : invA f -> looks dbg nv M0 H0 f cells levels motions acts -> soft_weight f "task-posture" = wp /\ soft_weight f "task-ee" = we.
Proof.
  intros IA L. destruct (looks_level f 1 0 _ _ _ _ L eq_refl) as (g1 & G1 & _ & N1). destruct (looks_level f 2 0 _ _ _ _ L eq_refl) as (g2 & G2 & _ & N2).
  split; rewrite (soft_in f _ _ _ IA (lk_hqp _ _ _ _ _ _ _ _ _ L)); unfold weigh_in, lsum; cbn [fold_right map fst snd]; unfold name_at; rewrite G1, G2, N1, N2; cbn; lra.
Qed.
Lemma no_contacts f c q v z i : looks dbg nv M0 H0 f cells levels motions acts -> needed_torque f (data c q v) z i = torque q v z i.
Proof. intros [L1 L2 L3 L4 L5 L6 L7 L8 L9 L10 L11]. unfold needed_torque, meas_torque, contact_torque, torque. rewrite L7, L8, L10. cbn. lra. Qed.
Record step_ok (n : nat) (st : arm) (c : posed) (cl0 cl1 : Solvers.level Rnum) : Prop := mkStep {
  so_pose : pose st = Some c; so_hqp : p_hqp c = [cl0; cl1]; so_pwf : SolverSpec.pwf nv [cl0; cl1]; so_w : forall w k, In (w, k) cl1 -> (0 <= w)%R;
  so_hard : forall z, SolverSpec.hard_ok cl0 z <-> admissible (a_q st) (a_v st) z;
  so_cost : forall z, SolverSpec.least_squares reg8 nv cl1 z = (/ 2 * cost (INR n * dt) (a_q st) (a_v st) z)%R;
  so_looks : looks dbg nv M0 H0 (p_form c) cells levels motions acts; so_dec : f_dec (p_form c) = false;
  so_tau : forall y f', vlen y = nv -> decode (p_form c) y = Some f' -> vlen (f_tau f') = nv /\ forall i, i < nv -> vget (f_tau f') i = torque (a_q st) (a_v st) (vget y) i;
  so_next : forall f s q v dv tau pl, looks dbg nv M0 H0 f cells levels motions acts -> SolverSizes.solver_state Solvers.Fast dbg s -> vlen q = vlen neu -> vlen v = nv ->
    inv (S n) (mkArm (a_time st + dt) f (p_post c) (p_ee c) (p_act c) (p_jb c) s q v dv tau pl) }.
Lemma pose_ok n st : inv n st -> exists c cl0 cl1, step_ok n st c cl0 cl1.
Proof.
  intros J. assert (HR' := HR). destruct HR' as (HD & HL & R0 & HM & HN & HI). assert (HC' := HC). destruct HC' as (Q0 & Wp & We & Wt & Wj & Hdt & Lm & M01 & Ltm & Lvm & Href).
  destruct J as [TM LK PM PK KP KD VA DE SE XM XC UM UK UL UU BM BD BVL BVU BA1 BA2 SO LQ LV].
  set (q := a_q st) in *. set (v := a_v st) in *. destruct (Href (a_time st)) as (F1 & F2 & F3).
  (* reference of the end-effector *)
  assert (EX1 : exists x1, xstep (a_ee st) (XRef (fst (fst (ref (a_time st)))) (snd (fst (ref (a_time st)))) (snd (ref (a_time st)))) = Ret x1 tt /\
     (x_kp x1, x_kd x1, x_local x1, x_mask x1) = (@mkVec Rnum 6 (fun _ => kpe), @mkVec Rnum 6 (fun _ => 2 * sqrt kpe)%R, loc, mask) /\
     x_pd x1 = vget (fst (fst (ref (a_time st)))) /\ x_Rd x1 = (fun a b => vget (fst (fst (ref (a_time st)))) (3 + (3 * b + a))) /\ x_vd x1 = vget (snd (fst (ref (a_time st)))) /\ x_ad x1 = vget (snd (ref (a_time st)))).
  { cbn [se3_step]. unfold se3_ref. rewrite F1, F2, F3. cbn [Nat.eqb andb]. eexists. split; [reflexivity|]. cbn [x_kp x_kd x_local x_mask x_pd x_Rd x_vd x_ad vec_to_se3 fst snd]. auto. }
  destruct EX1 as (x1 & EX1 & XC1 & X1 & X2 & X3 & X4). assert (XM1 := se3_go log3 _ _ _ _ _ XM EX1).
  destruct (post_defined Rtrunc dif good_ones_R _ _ _ _ _ (a_post st) q v (Nat.le_refl nv) (Nat.le_refl _) PM LQ) as (p2 & EP & SP & PM2 & _); [lia|].
  destruct SP as (KP2 & KD2 & VA2 & DE2 & SE2 & MK2).
  destruct (proj2 (se3_defined Rtrunc log3 _ _ x1 (fk q v) XM1)) as (x2 & EX2).
  { injection XC1 as _ _ _ ->. split; [lia|]. destruct (mdim_01 mask M01) as [-> _]. rewrite Lm. lia. }
  assert (XM2 := se3_go log3 _ _ _ _ _ XM1 EX2). destruct (se3_done _ _ _ _ _ _ _ XM1 EX2) as (D1 & D2 & D3 & D4 & _).
  assert (XC2 : (x_kp x2, x_kd x2, x_local x2, x_mask x2) = (@mkVec Rnum 6 (fun _ => kpe), @mkVec Rnum 6 (fun _ => 2 * sqrt kpe)%R, loc, mask)) by (rewrite D1, D2, D3, D4; exact XC1).
  destruct (jb_computes _ _ _ (a_jb st) v (Nat.le_refl nv) BM) as (b2 & EB & _ & SB & BM2); [lia|]. destruct SB as (SB1 & SB2 & SB3 & SB4 & SB5 & SB6 & SB7).
  set (e := data (constraints p2 x2 (a_act st) b2) q v).
  assert (EN : env_ok (a_form st) e).
  { apply data_fits; try assumption; [apply post_size; [exact PM2|congruence]|apply ee_size; [exact XM2|injection XC2; auto]|apply act_size; assumption|apply jb_size; assumption|apply nu_zero; assumption]. }
  destruct (looks_compute dbg nv M0 H0 R0 (a_form st) _ _ _ _ (a_time st) e LK EN (fun _ => eq_refl)) as (f1 & C1 & G1 & L1).
  assert (LR := lk_reach _ _ _ _ _ _ _ _ _ LK). assert (LR1 := lk_reach _ _ _ _ _ _ _ _ _ L1).
  destruct (after_facts dbg nv nv M0 H0 asc (a_form st) (a_time st) e f1 R0 LR G1 C1) as (IA & IB & Sz & DO & En & Nd & N1 & N2).
  destruct (problem_shape dbg nv nv M0 H0 f1 R0 (JointProgram.good_reach dbg _ _ LR1)) as (cl0 & cl1 & E & Hne & W0 & W1 & B0 & B1).
  assert (NV : nVar f1 = nv) by (unfold nVar; rewrite N1, (lk_k _ _ _ _ _ _ _ _ _ L1); lia).
  destruct (looks_level f1 1 0 _ _ _ _ L1 eq_refl) as (g1 & H1 & K1 & _). destruct (looks_level f1 2 0 _ _ _ _ L1 eq_refl) as (g2 & H2 & K2 & _).
  assert (SF : cl1 = [(wp, g1); (we, g2)]).
  { assert (EH := E). unfold problem_of, hqp in EH. rewrite (lk_hqp _ _ _ _ _ _ _ _ _ L1) in EH. unfold levels in EH. cbn [map] in EH. injection EH as _ EH. unfold deref in EH. cbn [fst snd] in EH. rewrite H1, H2 in EH.
    destruct cl1 as [|[w1 c1] [|[w2 c2] [|? ?]]]; cbn [map fst snd] in EH; try discriminate. injection EH as <- <- <- <-. reflexivity. }
  assert (KK : forall w c, In (w, c) cl1 -> c_kind c = CEq) by (rewrite SF; intros w c [H|[H|[]]]; congruence).
  exists (mkPosed p2 x1 x2 (a_act st) b2 f1 [cl0; cl1]), cl0, cl1. constructor; cbn [p_post p_aim p_ee p_act p_jb p_form p_hqp].
  - unfold pose. fold q v. destruct (ref (a_time st)) as [[va de] se]. cbn [fst snd] in *. rewrite EX1. cbn [go obind]. rewrite EP. cbn [go obind]. rewrite EX2. cbn [go obind actb_step]. rewrite EB. cbn [go obind]. fold e. rewrite C1. cbn [go obind].
    rewrite (JointProgram.fetch_ok _ _ E). reflexivity.
  - reflexivity.
  - exists cl0, cl1. rewrite NV in W0, W1. auto.
  - rewrite SF. intros w c [H|[H|[]]]; injection H as <- _; assumption.
  - intros z. rewrite (hard_same f1 cl0 [cl1] z E). rewrite (feasible_physical dbg nv nv M0 H0 asc (a_form st) (a_time st) e f1 R0 LR G1 C1 z).
    assert (MB := jb_meaning _ _ _ _ _ _ (Nat.le_refl nv) BM EB z). assert (MU := actb_meaning _ _ _ UM (torque q v z)). rewrite UK, ones_actives, UL, UU in MU.
    assert (BX : joint_box nv nv (a_jb st) v z <-> forall i, i < nv -> ((- vget vmax i <= vget v i + dt * z i <= vget vmax i) /\ (- 10 ^ 10 <= z i <= 10 ^ 10))%R).
    { unfold joint_box. rewrite BD, BVL, BVU, Nat.sub_diag. unfold minus, last_of. cbn [vget]. rewrite LV, Nat.sub_diag. split; [intros [_ B] i Hi|intros B; split; [lia|intros i Hi]]; specialize (B i Hi); cbn [Nat.add] in *; rewrite BA1, BA2 in *; exact B. }
    assert (TX : sat (u_c (a_act st)) (torque q v z) <-> forall i, i < nv -> (- vget taumax i <= torque q v z i <= vget taumax i)%R).
    { rewrite MU. split.
      - intros B i Hi. apply (B i i). rewrite (nth_error_nth' _ 0) by (rewrite seq_length; exact Hi). rewrite seq_nth by exact Hi. reflexivity.
      - intros B j i Hj. assert (Hl : j < nv) by (rewrite <- (seq_length nv 0); apply nth_error_Some; congruence). rewrite (nth_error_nth' _ 0), seq_nth in Hj by (rewrite ?seq_length; exact Hl). injection Hj as <-. apply B; exact Hl. }
    assert (TS : sat (u_c (a_act st)) (fun i => needed_torque f1 e z (f_nu f1 + i)) <-> sat (u_c (a_act st)) (torque q v z)).
    { rewrite (nu_zero _ L1). cbn [Nat.add]. assert (NT : forall i, needed_torque f1 e z i = torque q v z i) by (intros i; apply (no_contacts f1 _ q v z i L1)).
      rewrite !(actb_meaning _ _ _ UM). split; intros B j i Hj; specialize (B j i Hj); rewrite NT in *; exact B. }
    split.
    + intros [_ _ _ P4 _ P6] i Hi. rewrite (lk_mot _ _ _ _ _ _ _ _ _ L1) in P4. rewrite (lk_acts _ _ _ _ _ _ _ _ _ L1) in P6.
      specialize (P4 (mkTl 3 "task-joint-bounds" 0 4) (or_intror (or_intror (or_introl eq_refl))) eq_refl). specialize (P6 (mkTl 2 "task-actuation-bounds" 0 3) (or_introl eq_refl) eq_refl).
      cbn [tl_task e data e_task constraints] in P4, P6. apply MB in P4. rewrite BX in P4. apply TS in P6. rewrite TX in P6. destruct (P4 i Hi) as [B3 B4]. auto.
    + intros AD. constructor.
      * rewrite (nu_zero _ L1). lia.
      * rewrite (lk_con _ _ _ _ _ _ _ _ _ L1). contradiction.
      * rewrite (lk_con _ _ _ _ _ _ _ _ _ L1). contradiction.
      * rewrite (lk_mot _ _ _ _ _ _ _ _ _ L1). intros t [<-|[<-|[<-|[]]]] HP; try discriminate HP. cbn [tl_task e data e_task constraints]. apply MB, BX. intros i Hi. destruct (AD i Hi) as (A1 & A2 & _). auto.
      * rewrite (lk_for _ _ _ _ _ _ _ _ _ L1). contradiction.
      * rewrite (lk_acts _ _ _ _ _ _ _ _ _ L1). intros t [<-|[]] _. cbn [tl_task e data e_task constraints]. apply TS, TX. intros i Hi. apply (AD i Hi).
  - intros z. unfold SolverSpec.least_squares. rewrite (soft_meaning f1 e IA IB Sz DO En cl0 cl1 _ _ (lk_hqp _ _ _ _ _ _ _ _ _ L1) E KK z).
    unfold soft_cost, cost_with. rewrite (lk_mot _ _ _ _ _ _ _ _ _ L1), (lk_acts _ _ _ _ _ _ _ _ _ L1), (lk_for _ _ _ _ _ _ _ _ _ L1), (lk_con _ _ _ _ _ _ _ _ _ L1). destruct (weights f1 IA L1) as [SW1 SW2].
    unfold motions, acts, motion_cost, act_cost. rewrite !lsum_cons. cbn [tl_name tl_task e data e_task constraints]. rewrite SW1, SW2.
    replace (gap (b_c b2) z) with 0%R by (unfold gap; rewrite (proj1 (jb_size b2 BM2)); reflexivity).
    replace (gap (u_c (a_act st)) (fun i => needed_torque f1 e z (f_nu f1 + i))) with 0%R by (unfold gap; rewrite (proj1 (act_size _ UM UK)); reflexivity).
    rewrite (post_cost (a_post st) p2 q v PM PK KP KD VA DE SE LV EP PM2 MK2 z), (ee_cost x1 x2 (a_time st) q v XM1 XC1 X1 X2 X3 X4 EX2 z).
    unfold lsum, cost. cbn [fold_right map]. rewrite TM. replace (SolverSpec.sqnorm nv z) with (rsum nv (fun i => z i ^ 2)%R) by (unfold SolverSpec.sqnorm; apply rsum_ext; intros i _; ring). fold q v. ring.
  - exact L1.
  - exact Nd.
  - intros y f' Ly D. assert (LY : vlen y = nVar f1) by lia. destruct (decode_tau f1 e IA Sz DO y f' Nd LY D) as [T1 T2]. rewrite N1, N2, Nat.sub_diag, Nat.sub_0_r in T1, T2.
    split; [exact T1|]. intros i Hi. rewrite (T2 i Hi). apply (no_contacts f1 _ q v (vget y) i L1).
  - intros f s q' v' dv tau pl Lf Hs Hq Hv. constructor; cbn [a_time a_form a_post a_ee a_act a_jb a_solver a_q a_v]; try assumption; try congruence.
    rewrite TM, S_INR. ring.
Qed.
(** Whatever the external solver answers: when the status is OPTIMAL, the program goes on with the
    solution that is in the solver. *)
Lemma turn_any n st c cl0 cl1 s1 y : inv n st -> step_ok n st c cl0 cl1 -> vlen y = nv ->
  Solvers.solve Solvers.Fast dbg js (a_solver st) [cl0; cl1] (fst (ext [cl0; cl1])) (snd (ext [cl0; cl1])) = Ret s1 (Solvers.St_optimal, y) ->
  exists st', turn st = Some st' /\ inv (S n) st' /\ a_solver st' = s1 /\ vlen (a_dv st') = nv /\ (forall i, i < nv -> vget (a_dv st') i = vget y i) /\
    vlen (a_tau st') = nv /\ (forall i, i < nv -> vget (a_tau st') i = torque (a_q st) (a_v st) (vget y) i) /\
    a_q st' = intg (a_q st) (all (fun i => dt * (vget (a_v st) i + / 2 * dt * vget (a_dv st') i))%R) /\ a_v st' = all (fun i => vget (a_v st) i + dt * vget (a_dv st') i)%R /\
    a_plot st' = a_plot st ++ [a_v st'].
Proof.
  intros J [S1 S2 S3 S4 S5 S6 S7 S8 S9 S10] Ly SV. assert (HR' := HR). destruct HR' as (_ & _ & R0 & _ & _ & HI). assert (J' := J). destruct J'.
  destruct (looks_get dbg nv M0 H0 R0 (p_form c) _ _ _ _ GTau y S7 S8 Ly I) as (f2 & tau & G2 & GG2 & L2). apply get_answer in GG2 as [DC2 AT]. cbn [answer] in AT.
  assert (LY : vlen y = nVar (p_form c)) by (unfold nVar; rewrite (lk_nv _ _ _ _ _ _ _ _ _ S7), (lk_k _ _ _ _ _ _ _ _ _ S7); lia).
  destruct (decode_encodes (p_form c) y f2 S8 LY DC2) as (Dt & (E1 & E2 & _) & _). rewrite (lk_nv _ _ _ _ _ _ _ _ _ S7) in E1, E2.
  assert (LY2 : vlen y = nVar f2) by (unfold nVar; rewrite (lk_nv _ _ _ _ _ _ _ _ _ L2), (lk_k _ _ _ _ _ _ _ _ _ L2); lia).
  destruct (JointProgram.get_keeps dbg nv M0 H0 f2 GAcc y R0 (lk_reach _ _ _ _ _ _ _ _ _ L2) LY2 I) as (f3 & dv & G3 & GG3 & _). apply get_answer in GG3 as [DC3 AN]. rewrite (decode_cached f2 y Dt) in DC3. injection DC3 as <-. cbn [answer] in AN. subst dv.
  destruct (S9 y f2 Ly DC2) as [T1 T2]. subst tau. eexists. split.
  { unfold turn. rewrite S1, S2, SV, G2, G3. reflexivity. }
  cbn [a_solver a_dv a_tau a_q a_v a_plot]. split; [apply S10; [exact L2| |apply HI; [assumption|reflexivity]|reflexivity]|].
  - destruct iv_solver0 as (k1 & k2 & k3 & Hs). exists k1, k2, k3. eapply (reach_step _ _ _ _ (Solvers.SSolve Solvers.Fast [cl0; cl1] js (fst (ext [cl0; cl1])) (snd (ext [cl0; cl1])))); [exact Hs|exact I|]. cbn [Solvers.sstep]. rewrite SV. reflexivity.
  - split; [reflexivity|]. split; [exact E1|]. split; [exact E2|]. split; [exact T1|]. split; [exact T2|]. split; [reflexivity|]. split; reflexivity.
Qed.
Lemma admissible_ext q v z z' : (forall i, i < nv -> z i = z' i) -> admissible q v z -> admissible q v z'.
Proof.
  intros E A i Hi. specialize (A i Hi). unfold torque in *. rewrite <- (E i Hi). rewrite (rsum_ext nv _ (fun j => mget (mass q) i j * z j)%R) by (intros j Hj; rewrite E by exact Hj; reflexivity). exact A.
Qed.
(** A solver that finds the best solution when there is one. *)
Lemma turn_good n st : finds nv ext -> inv n st -> (exists z, admissible (a_q st) (a_v st) z) -> exists st', turn st = Some st' /\ inv (S n) st' /\ Solvers.q_status (a_solver st') = Solvers.St_optimal /\
    chosen (INR n * dt) (a_q st) (a_v st) (vget (a_dv st')) /\ vlen (a_dv st') = nv /\ vlen (a_tau st') = nv /\ (forall i, i < nv -> vget (a_tau st') i = torque (a_q st) (a_v st) (vget (a_dv st')) i) /\
    a_q st' = intg (a_q st) (all (fun i => dt * (vget (a_v st) i + / 2 * dt * vget (a_dv st') i))%R) /\ a_v st' = all (fun i => vget (a_v st) i + dt * vget (a_dv st') i)%R /\
    a_plot st' = a_plot st ++ [a_v st'].
Proof.
  intros HX J A. destruct (pose_ok n st J) as (c & cl0 & cl1 & SO). assert (SO' := SO). destruct SO' as [S1 S2 S3 S4 S5 S6 S7 S8 S9 S10].
  assert (U : SolverMain.usable Solvers.Fast dbg nv [cl0; cl1] (a_solver st)) by (split; [exact (iv_solver _ _ J)|]; split; [exact I|discriminate]).
  assert (FE : exists z, SolverSpec.hard_ok cl0 z) by (destruct A as [z Hz]; exists z; apply S5; exact Hz).
  destruct (HX cl0 cl1 S3 S4 FE) as (X1 & X2 & X3 & X4). destruct (ext [cl0; cl1]) as [ans y] eqn:EX. cbn [fst snd] in *. subst ans.
  destruct (SolverMain.accept Solvers.Fast dbg js (a_solver st) nv [cl0; cl1] Solvers.F_optimal y U S3) as (s1 & [res y'] & SV).
  destruct (SolverMain.solve_status _ _ _ _ _ _ _ _ _ _ SV) as (Q1 & _ & Q2 & Q5 & Q6). destruct (Q1 ltac:(cbn; congruence)) as [Q3 _]. assert (RS := proj2 Q3 eq_refl). assert (RY := Q2 eq_refl). rewrite RS in SV, Q5. rewrite RY in SV, Q6. clear RS RY.
  assert (SV' : Solvers.solve Solvers.Fast dbg js (a_solver st) [cl0; cl1] (fst (ext [cl0; cl1])) (snd (ext [cl0; cl1])) = Ret s1 (Solvers.St_optimal, y)) by (rewrite EX; exact SV).
  destruct (turn_any n st c cl0 cl1 s1 y J SO X2 SV') as (st' & T & J' & ES & L1 & L2 & L3 & L4 & L5 & L6 & L7). exists st'. rewrite ES.
  split; [exact T|]. split; [exact J'|]. split; [exact Q5|]. split; [|split; [exact L1|split; [exact L3|split; [|split; [exact L5|split; [exact L6|exact L7]]]]]].
  - assert (AY : admissible (a_q st) (a_v st) (vget (a_dv st'))) by (apply (admissible_ext _ _ (vget y)); [intros i Hi; symmetry; apply L2; exact Hi|apply S5; exact X3]).
    split; [exact AY|]. intros z' Hz'. assert (CE : SolverSpec.least_squares reg8 nv cl1 (vget (a_dv st')) = SolverSpec.least_squares reg8 nv cl1 (vget y)).
    { destruct S3 as (a & b & EE & _ & _ & W1 & K). injection EE as <- <-. apply cost_ext; assumption. }
    assert (M := X4 z' (proj2 (S5 z') Hz')). rewrite <- CE, !S6 in M. lra.
  - intros i Hi. rewrite (L4 i Hi). unfold torque. f_equal. apply rsum_ext. intros j Hj. rewrite L2 by exact Hj. reflexivity.
Qed.
Lemma exact_finds : exact_solver nv ext -> finds nv ext.
Proof. intros HX cl0 cl1 W Wt. exact (proj1 (HX cl0 cl1 W Wt cl0 cl1 eq_refl)). Qed.
Lemma turn_stops n st : exact_solver nv ext -> inv n st -> ~ (exists z, admissible (a_q st) (a_v st) z) -> turn st = None.
Proof.
  intros HX J A. destruct (pose_ok n st J) as (c & cl0 & cl1 & [S1 S2 S3 S4 S5 S6 S7 S8 S9 S10]).
  assert (U : SolverMain.usable Solvers.Fast dbg nv [cl0; cl1] (a_solver st)) by (split; [exact (iv_solver _ _ J)|]; split; [exact I|discriminate]).
  assert (A' : ~ exists z, SolverSpec.hard_ok cl0 z) by (intros [z Hz]; apply A; exists z; apply S5; exact Hz).
  assert (XU := proj2 (HX cl0 cl1 S3 S4 cl0 cl1 eq_refl) A'). unfold turn. rewrite S1, S2. destruct (ext [cl0; cl1]) as [ans y] eqn:EX. cbn [fst snd] in *. subst ans.
  destruct (SolverMain.accept Solvers.Fast dbg js (a_solver st) nv [cl0; cl1] Solvers.F_unbounded y U S3) as (s1 & [res y'] & SV). rewrite SV.
  destruct (SolverMain.solve_status _ _ _ _ _ _ _ _ _ _ SV) as (Q1 & _). destruct (Q1 ltac:(cbn; congruence)) as [Q3 _]. destruct res; try reflexivity. exfalso. assert (Q4 := proj1 Q3 eq_refl). discriminate Q4.
Qed.
(** EIQUADPROG_FAST_INFEASIBLE after a solution was found: the status stays OPTIMAL. *)
Lemma turn_hidden n st x : hides nv ext x -> vlen x = nv -> inv n st -> Solvers.q_status (a_solver st) = Solvers.St_optimal -> ~ (exists z, admissible (a_q st) (a_v st) z) -> exists st', turn st = Some st' /\ inv (S n) st' /\
  Solvers.q_status (a_solver st') = Solvers.St_optimal /\ (forall i, i < nv -> vget (a_dv st') i = vget x i) /\ (forall i, i < nv -> vget (a_tau st') i = torque (a_q st) (a_v st) (vget x) i).
Proof.
  intros HX Lx J HO A. destruct (pose_ok n st J) as (c & cl0 & cl1 & SO). assert (SO' := SO). destruct SO' as [S1 S2 S3 S4 S5 S6 S7 S8 S9 S10].
  assert (U : SolverMain.usable Solvers.Fast dbg nv [cl0; cl1] (a_solver st)) by (split; [exact (iv_solver _ _ J)|]; split; [exact I|discriminate]).
  assert (A' : ~ exists z, SolverSpec.hard_ok cl0 z) by (intros [z Hz]; apply A; exists z; apply S5; exact Hz).
  assert (EX := HX cl0 cl1 S3 S4 A').
  destruct (SolverMain.accept Solvers.Fast dbg js (a_solver st) nv [cl0; cl1] Solvers.F_infeasible x U S3) as (s1 & [res y'] & SV).
  destruct (SolverMain.solve_status _ _ _ _ _ _ _ _ _ _ SV) as (_ & Q1 & _ & Q5 & Q6). assert (RS := Q1 ltac:(cbn; congruence)). rewrite HO in RS. rewrite RS in SV, Q5. clear RS.
  assert (y' = x). { unfold Solvers.solve in SV. destruct (Solvers.prepare _ _ _ _ _ _); try discriminate. injection SV as _ _ SX. symmetry. exact SX. } rewrite H in SV, Q6. clear H.
  assert (SV' : Solvers.solve Solvers.Fast dbg js (a_solver st) [cl0; cl1] (fst (ext [cl0; cl1])) (snd (ext [cl0; cl1])) = Ret s1 (Solvers.St_optimal, x)) by (rewrite EX; exact SV).
  destruct (turn_any n st c cl0 cl1 s1 x J SO Lx SV') as (st' & T & J' & ES & L1 & L2 & L3 & L4 & L5 & L6 & L7). exists st'. rewrite ES. auto.
Qed.
(** What one turn does, and when there is one. *)
Lemma turn_exact n st : exact_solver nv ext -> inv n st ->
  ((exists z, admissible (a_q st) (a_v st) z) -> exists st', turn st = Some st' /\ inv (S n) st' /\ Solvers.q_status (a_solver st') = Solvers.St_optimal /\
    chosen (INR n * dt) (a_q st) (a_v st) (vget (a_dv st')) /\ vlen (a_dv st') = nv /\ vlen (a_tau st') = nv /\ (forall i, i < nv -> vget (a_tau st') i = torque (a_q st) (a_v st) (vget (a_dv st')) i) /\
    a_q st' = intg (a_q st) (all (fun i => dt * (vget (a_v st) i + / 2 * dt * vget (a_dv st') i))%R) /\ a_v st' = all (fun i => vget (a_v st) i + dt * vget (a_dv st') i)%R /\
    a_plot st' = a_plot st ++ [a_v st']) /\
  (~ (exists z, admissible (a_q st) (a_v st) z) -> turn st = None).
Proof. intros HX J. split; [intros A; exact (turn_good n st (exact_finds HX) J A)|exact (turn_stops n st HX J)]. Qed.
Lemma runs : exact_solver nv ext -> forall n st, after_turns n = Some st -> inv n st.
Proof.
  intros HX n. induction n as [|n IH]; intros st E.
  - destruct build_ok as (s0 & E0 & J & _). cbn [after_turns] in E. congruence.
  - cbn [after_turns] in E. destruct (after_turns n) as [s0|]; [|discriminate]. cbn [obind] in E. destruct (turn_exact n s0 HX (IH s0 eq_refl)) as [T1 T2].
    destruct (classic (exists z, admissible (a_q s0) (a_v s0) z)) as [A|A]; [|rewrite (T2 A) in E; discriminate].
    destruct (T1 A) as (s1 & E1 & J1 & _). congruence.
Qed.
(** * Results *)
Theorem arm_starts : exists st, after_turns 0 = Some st /\ a_time st = 0%R /\ a_q st = q0 /\ a_v st = vzero nv.
Proof. destruct build_ok as (s0 & E0 & J & Q & V & _). exists s0. split; [exact E0|]. split; [rewrite (iv_time _ _ J); cbn; lra|]. auto. Qed.
Theorem arm_turn : exact_solver nv ext -> forall n st st', after_turns n = Some st -> after_turns (S n) = Some st' ->
  a_time st' = (INR (S n) * dt)%R /\ chosen (INR n * dt) (a_q st) (a_v st) (vget (a_dv st')) /\ vlen (a_tau st') = nv /\ (forall i, i < nv -> vget (a_tau st') i = torque (a_q st) (a_v st) (vget (a_dv st')) i) /\
  a_q st' = intg (a_q st) (all (fun i => dt * (vget (a_v st) i + / 2 * dt * vget (a_dv st') i))%R) /\ a_v st' = all (fun i => vget (a_v st) i + dt * vget (a_dv st') i)%R.
Proof.
  intros HX n st st' E E'. assert (J := runs HX n st E). cbn [after_turns] in E'. rewrite E in E'. cbn [obind] in E'. destruct (turn_exact n st HX J) as [T1 T2].
  destruct (classic (exists z, admissible (a_q st) (a_v st) z)) as [A|A]; [|rewrite (T2 A) in E'; discriminate].
  destruct (T1 A) as (s1 & E1 & J1 & _ & C & L1 & L2 & L3 & L4 & L5 & _). rewrite E1 in E'. injection E' as <-. split; [exact (iv_time _ _ J1)|]. auto.
Qed.
Theorem arm_goes_on : exact_solver nv ext -> forall n st, after_turns n = Some st -> (exists st', after_turns (S n) = Some st') <-> exists z, admissible (a_q st) (a_v st) z.
Proof.
  intros HX n st E. assert (J := runs HX n st E). destruct (turn_exact n st HX J) as [T1 T2]. cbn [after_turns]. rewrite E. cbn [obind]. split.
  - intros (st' & E'). destruct (classic (exists z, admissible (a_q st) (a_v st) z)) as [A|A]; [exact A|]. rewrite (T2 A) in E'. discriminate.
  - intros A. destruct (T1 A) as (s1 & E1 & _). eauto.
Qed.
Theorem arm_limits : exact_solver nv ext -> forall n st, after_turns (S n) = Some st -> forall i, i < nv ->
  (- vget vmax i <= vget (a_v st) i <= vget vmax i)%R /\ (- vget taumax i <= vget (a_tau st) i <= vget taumax i)%R /\ (- 10 ^ 10 <= vget (a_dv st) i <= 10 ^ 10)%R.
Proof.
  intros HX n st' E' i Hi. assert (E0 := E'). cbn [after_turns] in E0. destruct (after_turns n) as [st|] eqn:E; [|discriminate]. clear E0.
  destruct (arm_turn HX n st st' E E') as (_ & [A _] & _ & T & _ & V). destruct (A i Hi) as (A1 & A2 & A3). rewrite (T i Hi), V. cbn [all vget]. auto.
Qed.
Theorem arm_never_stops : exact_solver nv ext -> (forall i, i < nv -> (0 <= vget vmax i)%R) ->
  (forall q v : vec Rnum, vlen q = vlen neu -> vlen v = nv -> (forall i, i < nv -> (- vget vmax i <= vget v i <= vget vmax i)%R) -> forall i, i < nv -> (- vget taumax i <= vget (nle q v) i <= vget taumax i)%R) ->
  forall n, exists st, after_turns n = Some st /\ forall i, i < nv -> (- vget vmax i <= vget (a_v st) i <= vget vmax i)%R.
Proof.
  intros HX HV HT. induction n as [|n (st & E & B)].
  - destruct arm_starts as (st & E & _ & _ & V). exists st. split; [exact E|]. intros i Hi. rewrite V. cbn [vzero vget]. change (@n0 Rnum) with 0%R. specialize (HV i Hi). lra.
  - assert (J := runs HX n st E). assert (A : exists z, admissible (a_q st) (a_v st) z).
    + exists (fun _ => 0%R). intros i Hi. unfold torque. rewrite rsum_zero by (intros; apply Rmult_0_r).
      assert (T := HT (a_q st) (a_v st) (iv_q _ _ J) (iv_v _ _ J) B i Hi). specialize (B i Hi). split; [lra|]. split; [lra|]. lra.
    + destruct (proj2 (arm_goes_on HX n st E) A) as (st' & E'). exists st'. split; [exact E'|]. intros i Hi. apply (arm_limits HX n st' E' i Hi).
Qed.
(** The columns of v that are plotted (ex:163) are one period ahead: column k, drawn at time k * dt,
    holds the velocity of time (k + 1) * dt, since integrate_dv adds to the column it is given (tm:113). *)
Theorem arm_plot : exact_solver nv ext -> forall n st, after_turns n = Some st -> List.length (a_plot st) = n /\
  forall k, k < n -> exists st', after_turns (S k) = Some st' /\ nth_error (a_plot st) k = Some (a_v st') /\ a_time st' = (INR k * dt + dt)%R.
Proof.
  intros HX n. induction n as [|n IH]; intros st E.
  - destruct build_ok as (s0 & E0 & J & _ & _ & PL). cbn [after_turns] in E. assert (st = s0) by congruence. subst. rewrite PL. split; [reflexivity|]. lia.
  - assert (E' := E). cbn [after_turns] in E'. destruct (after_turns n) as [s0|] eqn:E0; [|discriminate]. cbn [obind] in E'. destruct (IH s0 eq_refl) as [L P]. assert (J := runs HX n s0 E0).
    destruct (turn_exact n s0 HX J) as [T1 T2]. destruct (classic (exists z, admissible (a_q s0) (a_v s0) z)) as [A|A]; [|rewrite (T2 A) in E'; discriminate].
    destruct (T1 A) as (s1 & E1 & J1 & _ & _ & _ & _ & _ & _ & _ & PL). assert (s1 = st) by congruence. subst s1. rewrite PL. split; [rewrite app_length, L; cbn; lia|].
    intros k Hk. destruct (Nat.eq_dec k n) as [->|NE].
    + exists st. split; [exact E|]. rewrite nth_error_app2, L, Nat.sub_diag by lia. split; [reflexivity|]. rewrite (iv_time _ _ J1), S_INR. ring.
    + destruct (P k ltac:(lia)) as (s2 & E2 & N2 & T2'). exists s2. split; [exact E2|]. rewrite nth_error_app1 by lia. auto.
Qed.

Theorem arm_hidden x : finds nv ext -> hides nv ext x -> vlen x = nv -> (exists z, admissible q0 (vzero nv) z) -> forall n, exists st, after_turns (S n) = Some st /\
  forall st', after_turns n = Some st' -> ~ (exists z, admissible (a_q st') (a_v st') z) -> (forall i, i < nv -> vget (a_dv st) i = vget x i) /\ (forall i, i < nv -> vget (a_tau st) i = torque (a_q st') (a_v st') (vget x) i).
Proof.
  intros HF HH Lx A0.
  assert (G : forall n, exists st, after_turns (S n) = Some st /\ inv (S n) st /\ Solvers.q_status (a_solver st) = Solvers.St_optimal /\
    forall st', after_turns n = Some st' -> ~ (exists z, admissible (a_q st') (a_v st') z) -> (forall i, i < nv -> vget (a_dv st) i = vget x i) /\ (forall i, i < nv -> vget (a_tau st) i = torque (a_q st') (a_v st') (vget x) i)).
  { induction n as [|n (st & E & J & O & _)].
    - destruct build_ok as (s0 & E0 & J & Q & V & _). rewrite <- Q, <- V in A0. destruct (turn_good 0 s0 HF J A0) as (s1 & T & J1 & O & _). exists s1. split; [cbn [after_turns]; rewrite E0; exact T|]. split; [exact J1|]. split; [exact O|].
      intros st' E' NA. cbn [after_turns] in E'. assert (st' = s0) by congruence. subst. contradiction.
    - destruct (classic (exists z, admissible (a_q st) (a_v st) z)) as [A|A].
      + destruct (turn_good (S n) st HF J A) as (s1 & T & J1 & O1 & _). exists s1. split; [change (after_turns (S (S n))) with (obind (after_turns (S n)) turn); rewrite E; exact T|]. split; [exact J1|]. split; [exact O1|].
        intros st' E' NA. assert (st' = st) by congruence. subst. contradiction.
      + destruct (turn_hidden (S n) st x HH Lx J O A) as (s1 & T & J1 & O1 & D & TQ). exists s1. split; [change (after_turns (S (S n))) with (obind (after_turns (S n)) turn); rewrite E; exact T|]. split; [exact J1|]. split; [exact O1|].
        intros st' E' NA. assert (st' = st) by congruence. subst. auto. }
  intros n. destruct (G n) as (st & E & _ & _ & H). eauto.
Qed.
End Program.
