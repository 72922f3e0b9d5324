(** The motion computed by the solver among all motions that respect the hard constraints: it has
    the smallest weighted error, what a weight does, and what happens when a soft task can be met. *)
From Coq Require Import String List Arith Bool ZArith Lia Permutation Reals Lra.
From Verif Require Import Scalar Outcome Linalg Constraint Formulation ListUtil FormSpec FormDataSpec FormPhysSpec RSum FormInv FormInvB FormInvC FormOps FormSafe FormSafe2 FormData FormZero FormHist FormPhys FormMain FormLevels FormSolver SoftTasks.
From Verif Require Solvers SolverSpec SolverSizes SolverMain SolverRefute.
Import ListNotations.
Open Scope string_scope.
Open Scope list_scope.
Open Scope nat_scope.
Local Notation rsum := (@nsum Rnum).

(** * Specification *)
(** One period: any history of well-formed calls, computeProblemData with data [e], then a solver
    after any history of its own, whose external solver is exact, reports OPTIMAL with [y]; its
    back-end adds [r] to the diagonal of the Hessian. *)
Definition planned (dbg : bool) (nv na : nat) (M0 : mat Rnum) (H0 : vec Rnum) (asc : nat -> string) (e : env Rnum) (s' : fstate Rnum) (r : R) (y : vec Rnum) : Prop :=
  FormMain.robot_ok nv M0 H0 /\ exists s t cl0 cl1 b dbg' jk q ans x q',
    reach (step dbg) (assoc_good dbg asc) (init nv na M0 H0) s /\ assoc_good dbg asc s (OCompute t e) /\ step dbg s (OCompute t e) = Ret s' OutUnit /\
    problem_of s' [cl0; cl1] /\ SolverSizes.solver_state b dbg' q /\ SolverSpec.fits b (nVar s') [cl0; cl1] /\ SolverSpec.handled b ans /\
    Solvers.solve b dbg' jk q [cl0; cl1] ans x = Ret q' (Solvers.St_optimal, y) /\ exact_answer b q' ans x /\ r = SolverMain.solve_reg b.
(** The weights of level 1 are not negative. *)
Definition weights_ok (s : fstate Rnum) : Prop := forall en, In en (nth 1 (hqp s) []) -> (0 <= fst en)%R.
(** Square of all the variables. *)
Definition size_of (s : fstate Rnum) (x : nat -> R) : R := rsum (nVar s) (fun i => x i * x i)%R.
(** Error of what is called [n]. *)
Definition error_of (n : string) : fstate Rnum -> env Rnum -> (nat -> R) -> R := cost_with (fun m => if String.eqb m n then 1%R else 0%R).
(** Weighted error of everything else. *)
Definition others (n : string) (s : fstate Rnum) : env Rnum -> (nat -> R) -> R := cost_with (fun m => if String.eqb m n then 0%R else soft_weight s m) s.

(** * Proofs *)
Lemma lsum_lin {A} (f g h : A -> R) k l : (forall a, In a l -> f a = g a + k * h a)%R -> (lsum f l = lsum g l + k * lsum h l)%R.
Proof. intros H. rewrite <- lsum_scal, <- lsum_plus. apply lsum_ext, H. Qed.
Lemma lsum_ge0 {A} (f : A -> R) l : (forall a, In a l -> 0 <= f a)%R -> (0 <= lsum f l)%R.
Proof. induction l as [|a l IH]; intros H; [unfold lsum; simpl; lra|]. rewrite lsum_cons. assert (X := H a (or_introl eq_refl)). assert (Y := IH (fun b Hb => H b (or_intror Hb))). lra. Qed.
Lemma gap_pos A b y : (0 <= eq_gap A b y)%R.
Proof. unfold eq_gap. apply rsum_nonneg. intros i _. apply Rle_0_sqr. Qed.
Lemma task_gap_pos c y : (0 <= gap c y)%R.
Proof. unfold gap. destruct (c_kind c); try lra. apply gap_pos. Qed.
(** The cost is linear in the weights. *)
Lemma cost_lin V W Z k s e x : (forall m, V m = W m + k * Z m)%R -> (cost_with V s e x = cost_with W s e x + k * cost_with Z s e x)%R.
Proof.
  intros H. unfold cost_with.
  rewrite (lsum_lin (motion_cost V e x) (motion_cost W e x) (motion_cost Z e x) k) by (intros a _; unfold motion_cost; rewrite H; ring).
  rewrite (lsum_lin (force_cost V s e x) (force_cost W s e x) (force_cost Z s e x) k) by (intros a _; unfold force_cost; rewrite H; ring).
  rewrite (lsum_lin (act_cost V s e x) (act_cost W s e x) (act_cost Z s e x) k) by (intros a _; unfold act_cost; rewrite H; ring).
  rewrite (lsum_lin (contact_cost V s e x) (contact_cost W s e x) (contact_cost Z s e x) k) by (intros a _; unfold contact_cost; rewrite !H; ring). ring.
Qed.
Lemma cost_pos W s e x : (forall m, 0 <= W m)%R -> (0 <= cost_with W s e x)%R.
Proof.
  intros H. unfold cost_with. repeat apply Rplus_le_le_0_compat; apply lsum_ge0; intros a _; unfold motion_cost, force_cost, act_cost, contact_cost;
    try apply Rplus_le_le_0_compat; apply Rmult_le_pos; auto; apply gap_pos || apply task_gap_pos.
Qed.
Lemma soft_split n s e x : (soft_cost s e x = others n s e x + soft_weight s n * error_of n s e x)%R.
Proof. apply cost_lin. intros m. destruct (String.eqb_spec m n) as [->|]; ring. Qed.
Lemma weight_pos s n : weights_ok s -> (0 <= soft_weight s n)%R.
Proof. intros H. apply lsum_ge0. intros en He. destruct (named n en); [apply H, He|lra]. Qed.
Lemma others_pos n s e x : weights_ok s -> (0 <= others n s e x)%R.
Proof. intros H. apply cost_pos. intros m. destruct (String.eqb m n); [lra|apply weight_pos, H]. Qed.
Lemma error_pos n s e x : (0 <= error_of n s e x)%R.
Proof. apply cost_pos. intros m. destruct (String.eqb m n); lra. Qed.
Lemma size_pos s x : (0 <= size_of s x)%R.
Proof. apply rsum_nonneg. intros i _. apply Rle_0_sqr. Qed.

Section P.
Variables (dbg : bool) (nv na : nat) (M0 : mat Rnum) (H0 : vec Rnum) (asc : nat -> string) (e : env Rnum) (s' : fstate Rnum) (r : R) (y : vec Rnum).
Hypothesis HC : planned dbg nv na M0 H0 asc e s' r y.
Lemma plan_facts : invA s' /\ invB s' /\ env_ok s' e /\ f_nv s' = nv /\ f_nu s' = nv - na.
Proof.
  destruct HC as (R0 & s & t & cl0 & cl1 & b & dbg' & jk & q & ans & x & q' & Hr & Ho & Hs & _).
  destruct (after_facts dbg nv na M0 H0 asc s t e s' R0 Hr Ho Hs) as (A & B & Sz & D & En & Nd & N1 & N2). auto.
Qed.
(** The solver accepted, so the soft constraints are equalities, and its cost is [soft_cost]. *)
Lemma plan_core : exists cl0 cl1 b dbg' jk q (ans : Solvers.code b) x q', problem_of s' [cl0; cl1] /\ SolverSizes.solver_state b dbg' q /\
  SolverSpec.fits b (Solvers.q_n q') [cl0; cl1] /\ Solvers.solve b dbg' jk q [cl0; cl1] ans x = Ret q' (Solvers.St_optimal, y) /\ Solvers.q_n q' = nVar s' /\ r = SolverMain.solve_reg b /\
  (forall z, SolverSpec.qp_feasible b q' z <-> physical s' e z) /\ physical s' e (vget y) /\
  (forall z, physical s' e z -> SolverSpec.qp_cost q' (vget y) <= SolverSpec.qp_cost q' z)%R /\
  (forall z, (SolverSpec.least_squares r (nVar s') cl1 z = / 2 * (soft_cost s' e z + r * size_of s' z))%R).
Proof.
  destruct HC as (R0 & s & t & cl0 & cl1 & b & dbg' & jk & q & ans & x & q' & Hr & Ho & Hs & E & S & F & Hh & Hv & Ex & Er).
  destruct (after_facts dbg nv na M0 H0 asc s t e s' R0 Hr Ho Hs) as (A & B & Sz & D & En & Nd & N1 & N2).
  destruct (solve_physical dbg nv na M0 H0 asc s t e s' cl0 cl1 b dbg' jk q ans x q' y R0 Hr Ho Hs E S F Hh Hv Ex) as [Ph _].
  assert (Hr' : reach (step dbg) (good dbg) (init nv na M0 H0) s').
  { eapply reach_step; [|apply Ho|rewrite Hs; reflexivity]. clear - Hr.
    induction Hr as [|u o v Hr IH Hp Ha]; [constructor|]. eapply reach_step; [exact IH|apply Hp|exact Ha]. }
  destruct (problem_shape dbg nv na M0 H0 s' R0 Hr') as (c0 & c1 & E' & Hne & W0 & W1 & B0 & B1).
  pose proof (problem_unique s' _ _ E E') as EP. injection EP as <- <-.
  assert (HE : forall w c, In (w, c) cl1 -> c_kind c = CEq).
  { intros w c Hin. destruct (c_kind c) eqn:Kc; [reflexivity| |].
    all: destruct (formulation_rejected dbg nv na M0 H0 s' [cl0; cl1] b dbg' jk q ans x R0 Hr' E S F) as [q1 X]; [|rewrite X in Hv; discriminate].
    all: exists w, c; split; [exact Hin|congruence]. }
  assert (U : SolverMain.usable b dbg' (nVar s') [cl0; cl1] q).
  { split; [exact S|]. split; [exact F|]. intros _ (d0 & l & Ec & HB). injection Ec as <- _. contradiction. }
  assert (W : SolverSpec.pwf (nVar s') [cl0; cl1]).
  { exists cl0, cl1. split; [reflexivity|]. split; [exact Hne|]. split; [exact W0|]. split; [exact W1|]. exact HE. }
  assert (N := SolverRefute.solve_n _ _ _ _ _ _ _ _ _ _ U W Hv).
  assert (FF : SolverSpec.fits b (Solvers.q_n q') [cl0; cl1]) by (rewrite N; exact F).
  assert (G : forall z, SolverSpec.qp_feasible b q' z <-> physical s' e z).
  { intros z. rewrite (SolverMain.solve_feasible _ _ _ _ _ _ _ _ _ _ S FF Hv z), (hard_same s' cl0 [cl1] z E).
    rewrite (feasible_physical dbg nv na M0 H0 asc s t e s' R0 Hr Ho Hs z).
    split; [intros [H _]; exact H|]. intros H; split; [exact H|]. intros _ HB. contradiction. }
  exists cl0, cl1, b, dbg', jk, q, ans, x, q'.
  split; [exact E|]. split; [exact S|]. split; [exact FF|]. split; [exact Hv|]. split; [exact N|]. split; [exact Er|]. split; [exact G|]. split; [exact Ph|]. split.
  - pose proof (SolverMain.solve_status _ _ _ _ _ _ _ _ _ _ Hv) as (St & _ & Yx & _). destruct (St Hh) as [Opt _].
    assert (O : SolverSpec.optimum b ans) by (apply Opt; reflexivity). rewrite (Yx O). destruct (Ex O) as [_ Mx]. intros z Hz. apply Mx, G, Hz.
  - assert (L : List.length (f_hqp s') = 2) by exact (two_levels dbg _ nv na M0 H0 s' Hr').
    destruct (f_hqp s') as [|l0 [|l1 [|? ?]]] eqn:EL; try discriminate.
    intros z. unfold SolverSpec.least_squares. rewrite (soft_meaning s' e A B Sz D En cl0 cl1 l0 l1 EL E HE z). reflexivity.
Qed.
(** The computed motion has the smallest cost. *)
Theorem plan_best : physical s' e (vget y) /\
  forall z, physical s' e z -> (soft_cost s' e (vget y) + r * size_of s' (vget y) <= soft_cost s' e z + r * size_of s' z)%R.
Proof.
  destruct plan_core as (cl0 & cl1 & b & dbg' & jk & q & ans & x & q' & E & S & FF & Hv & N & Er & G & Ph & Mi & L). split; [exact Ph|].
  intros z Hz. assert (K := proj1 (SolverMain.solve_minimisers _ _ _ _ _ _ _ _ _ _ S Hv (physical s' e) (vget y)) Mi z Hz).
  rewrite N, <- Er, !L in K. lra.
Qed.
(** With a regularised back-end there is only one. *)
Theorem plan_unique z : (0 < r)%R -> weights_ok s' -> physical s' e z ->
  (soft_cost s' e z + r * size_of s' z <= soft_cost s' e (vget y) + r * size_of s' (vget y))%R -> forall i, i < nVar s' -> z i = vget y i.
Proof.
  intros Hr Hw Hz Le. destruct plan_best as [_ Best].
  destruct plan_core as (cl0 & cl1 & b & dbg' & jk & q & ans & x & q' & E & S & FF & Hv & N & Er & G & Ph & Mi & L).
  assert (Rb : SolverMain.regularised b) by (rewrite Er in Hr; split; intros ->; cbn in Hr; lra).
  assert (W : forall w c, In (w, c) cl1 -> (0 <= (w : R))%R).
  { intros w c Hin. apply (Hw (w, Some c)). unfold problem_of in E. rewrite E. cbn [map nth]. apply in_map_iff. exists (w, c). auto. }
  rewrite <- N. apply (SolverMain.solve_unique b dbg' jk q cl0 cl1 ans x q' _ Rb S FF Hv W z (vget y)); try (apply G; assumption).
  - intros u Fu. apply (proj2 (SolverMain.solve_minimisers _ _ _ _ _ _ _ _ _ _ S Hv (physical s' e) z)); [|apply G, Fu].
    intros v Hv'. rewrite N, <- Er, !L. specialize (Best v Hv'). lra.
  - intros u Fu. apply Mi, G, Fu.
Qed.
(** What another motion with given errors says about the computed one. *)
Theorem plan_error n z : physical s' e z -> weights_ok s' -> (0 <= r)%R -> (0 < soft_weight s' n)%R ->
  (error_of n s' e (vget y) <= error_of n s' e z + (others n s' e z + r * size_of s' z) / soft_weight s' n)%R.
Proof.
  intros Hz Hw Hr Hp. destruct plan_best as [_ Best]. specialize (Best z Hz). rewrite !(soft_split n s' e) in Best.
  assert (P1 := others_pos n s' e (vget y) Hw). assert (P2 := Rmult_le_pos _ _ Hr (size_pos s' (vget y))).
  apply (Rmult_le_reg_l (soft_weight s' n)); [exact Hp|]. unfold Rdiv. rewrite Rmult_plus_distr_l.
  replace (soft_weight s' n * ((others n s' e z + r * size_of s' z) * / soft_weight s' n))%R with (others n s' e z + r * size_of s' z)%R by (field; lra). lra.
Qed.
End P.
