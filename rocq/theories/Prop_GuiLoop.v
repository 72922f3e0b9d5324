(** C109: the two threads of the balance exercise with buttons. *)
From Coq Require Import String List Arith Bool ZArith QArith Reals Lia.
From Verif Require Import Scalar Outcome Linalg Constraint Formulation FormSpec FormMain FormCheck PyData Walking WalkingSpec WalkingP WalkingQ Prop_Walking
  Solvers SolverSpec SolverSizes SolverMain FormSolver GuiLoop GuiLoopP.
Import ListNotations.
Open Scope string_scope.
Open Scope list_scope.
Open Scope nat_scope.

(** ** C109 buttons pressed at any moment *)
(** [g] is a state that the two threads reach when the buttons and the calls of the loop
    interleave by the rules. *)
Definition reached {K : num} (dbg : bool) (C : conf K) (nv na : nat) (g : gui K) : Prop :=
  exists M0 H0 fmin fmax nf nf' e0 e1 b0 q0,
    ((n0 : K) <? n0)%num = false /\ fine C nv M0 H0 e0 e1 /\
    biped_new dbg C nv na M0 H0 (six "contact_rfoot" fmin fmax nf) (six "contact_lfoot" fmin fmax nf') e0 e1 = Some b0 /\
    solver_state Fast dbg q0 /\ reach (gstep dbg C) rule (mkGui b0 Ready q0) g.
Lemma reached_inv {K : num} dbg (C : conf K) nv na g : reached dbg C nv na g ->
  exists M0 H0 x y, robot_ok nv M0 H0 /\ is_six x "contact_rfoot" /\ is_six y "contact_lfoot" /\ ((n0 : K) <? n0)%num = false /\
    ginv dbg C nv na M0 H0 x y g.
Proof.
  intros (M0 & H0 & fmin & fmax & nf & nf' & e0 & e1 & b0 & q0 & Z & (Hr & Hc & S0 & S1) & E & Q & R).
  exists M0, H0, (six "contact_rfoot" fmin fmax nf), (six "contact_lfoot" fmin fmax nf').
  assert (X := right_six fmin fmax nf). assert (Y := left_six fmin fmax nf'). split; [exact Hr|]. split; [exact X|]. split; [exact Y|]. split; [exact Z|].
  eapply (ginv_reach dbg C nv na M0 H0 _ _ Hr X Y Z); [|exact R]. exact (ginv_start dbg C nv na M0 H0 _ _ Hr X Y e0 e1 b0 q0 Hc S0 S1 E Q).
Qed.

(** Whatever the interleaving, the problem of the formulation is the one of the feet that the
    flags announce, and every further call by the rules returns. *)
Theorem C109_safe : forall K dbg (C : conf K) nv na g, reached dbg C nv na g ->
  stands C nv na (b_rf (g_b g)) (b_lf (g_b g)) (b_f (g_b g)) /\
  forall ev, rule g ev -> exists g' o, gstep dbg C g ev = Ret g' o.
Proof.
  intros K dbg C nv na g R. destruct (reached_inv _ _ _ _ _ R) as (M0 & H0 & x & y & Hr & X & Y & Z & G). split.
  - exact (fit_stands dbg C nv na M0 H0 x y Hr X Y _ (proj1 G)).
  - intros ev Hv. destruct (ginv_step dbg C nv na M0 H0 x y Hr X Y Z g ev G Hv) as (g' & o & E & _). eauto.
Qed.
Print Assumptions C109_safe.

(** With 24 velocities or more the solution is always long enough. *)
Theorem C109_long : forall K dbg (C : conf K) nv na g, reached dbg C nv na g -> 24 <= nv -> enabled g Read -> rule g Read.
Proof.
  intros K dbg C nv na g R L En. destruct (reached_inv _ _ _ _ _ R) as (M0 & H0 & x & y & Hr & X & Y & Z & G).
  unfold enabled in En. destruct (g_at g) as [|d|z|] eqn:E; try contradiction. exact (long_enough dbg C nv na M0 H0 x y g z L G E).
Qed.
Print Assumptions C109_long.

(** With fewer, the read after both buttons were pressed may be out of bounds. *)
Theorem C109_short_refuted : forall K dbg (C : conf K) nv na g z, reached dbg C nv na g -> g_at g = Solved z ->
  vlen z < 12 * count (b_rf (g_b g)) (b_lf (g_b g)) -> gstep dbg C g Read = Undef.
Proof.
  intros K dbg C nv na g z R E L. destruct (reached_inv _ _ _ _ _ R) as (M0 & H0 & x & y & Hr & X & Y & Z & G).
  exact (too_short dbg C nv na M0 H0 x y Hr X Y g z G E L).
Qed.
Print Assumptions C109_short_refuted.

(** No button between computeProblemData and solve: the solver is given the problem of the
    present contacts. *)
Theorem C109_fresh : forall K dbg (C : conf K) nv na g t e g1 o jk ans z g2 o2, reached dbg C nv na g -> g_at g = Ready -> rule g (Comp t e) ->
  gstep dbg C g (Comp t e) = Ret g1 o -> gstep dbg C g1 (Solve jk ans z) = Ret g2 o2 -> optimum Fast ans ->
  g_at g2 = Solved z /\ exists P, problem_of (b_f (g_b g1)) P /\ solve Fast dbg jk (g_q g) P ans z = Ret (g_q g2) (St_optimal, z).
Proof.
  intros K dbg C nv na g t e g1 o jk ans z g2 o2 R. destruct (reached_inv _ _ _ _ _ R) as (M0 & H0 & x & y & Hr & X & Y & Z & G).
  exact (fresh dbg C nv na M0 H0 x y Hr g t e g1 o jk ans z g2 o2 G).
Qed.
Print Assumptions C109_fresh.

(** Buttons after solve: the accelerations that are read are still those of the solution. *)
Theorem C109_late : forall K dbg (C : conf K) nv na g z g', reached dbg C nv na g -> 24 <= nv -> g_at g = Solved z ->
  reach (gstep dbg C) only_press g g' ->
  exists g2 v, gstep dbg C g' Read = Ret g2 (Some v) /\ begins nv v z /\ g_at g2 = Ready.
Proof.
  intros K dbg C nv na g z g' R L E P. destruct (reached_inv _ _ _ _ _ R) as (M0 & H0 & x & y & Hr & X & Y & Z & G).
  destruct (press_at dbg C nv na M0 H0 x y Hr X Y Z g g' G P) as (A & _ & G'). rewrite E in A.
  destruct (long_enough dbg C nv na M0 H0 x y g' z L G' A) as (_ & B).
  exact (late dbg C nv na M0 H0 x y Hr X Y Z g z g' G E P (B z A)).
Qed.
Print Assumptions C109_late.

(** A foot added between computeProblemData and solve: the new sizes have erased the data of
    every task, so the only optimum is zero and the robot gets zero acceleration for this
    period. The zero vector is an optimum. *)
Theorem C109_coast : forall dbg (C : conf Rnum) nv na g t e g1 o g2, reached dbg C nv na g -> g_at g = Ready -> rule g (Comp t e) ->
  gstep dbg C g (Comp t e) = Ret g1 o -> reach (gstep dbg C) only_press g1 g2 ->
  (b_rf (g_b g2), b_lf (g_b g2)) <> (b_rf (g_b g1), b_lf (g_b g1)) ->
  (forall jk ans z g3 o3, gstep dbg C g2 (Solve jk ans z) = Ret g3 o3 -> optimum Fast ans -> exact_answer Fast (g_q g3) ans z ->
     g_at g3 = Solved z /\ forall i, i < nVar (b_f (g_b g3)) -> vget z i = 0%R) /\
  (forall jk, let z := vzero (nVar (b_f (g_b g2))) in
     rule g2 (Solve jk F_optimal z) /\ exists g3 o3, gstep dbg C g2 (Solve jk F_optimal z) = Ret g3 o3 /\ exact_answer Fast (g_q g3) F_optimal z).
Proof.
  intros dbg C nv na g t e g1 o g2 R A Hv E1 P N. destruct (reached_inv _ _ _ _ _ R) as (M0 & H0 & x & y & Hr & X & Y & Z & G). split.
  - intros jk ans z g3 o3. exact (coast dbg C nv na M0 H0 x y Hr X Y g t e g1 o g2 jk ans z g3 o3 G A Hv E1 P N).
  - intros jk. exact (coast_possible dbg C nv na M0 H0 x y Hr X Y g t e g1 o g2 jk G A Hv E1 P N).
Qed.
Print Assumptions C109_coast.

(** A foot removed between computeProblemData and solve: the object that the loop holds still
    lists the constraints of that foot, with the old number of columns. *)
Theorem C109_removal_refuted : forall K dbg (C : conf K) nv na g t e g1 o r, reached dbg C nv na g -> g_at g = Ready -> rule g (Comp t e) ->
  gstep dbg C g (Comp t e) = Ret g1 o -> standing g1 r = true ->
  exists g2 o2, gstep dbg C g1 (Press r) = Ret g2 o2 /\ forall jk ans z, gstep dbg C g2 (Solve jk ans z) = Undef.
Proof.
  intros K dbg C nv na g t e g1 o r R A Hv E1 S. destruct (reached_inv _ _ _ _ _ R) as (M0 & H0 & x & y & Hr & X & Y & Z & G).
  exact (stale dbg C nv na M0 H0 x y Hr X Y Z g t e g1 o r G A Hv E1 S).
Qed.
Print Assumptions C109_removal_refuted.

(** A robot with [n] velocities, 2 of them actuated, zero matrices. *)
Definition guiE (n k : nat) : env Qnum :=
  let eqn r n := mkConstr "" CEq (mzero r n) (vzero r) (vzero 0) (vzero 0) in
  mkEnv (mzero n n) (vzero n) (fun _ => (mzero 6 n, vzero 6)) (fun _ => mzero 6 12)
        (fun _ _ _ => (mzero 17 12, vzero 17, vzero 17)) (fun _ => (mzero 6 12, vzero 6))
        (fun id => match id with 0 => eqn 3 n | 1 => eqn 3 k | 2 => eqn 3 n | 3 => eqn 2 n | _ => eqn 6 n end)
        (fun _ => "") (fun _ => vzero n).
Definition guiS n dbg := biped_new dbg exC n 2 (mzero n n) (vzero n) (@six Qnum "contact_rfoot" 0%Q 1000000%Q (fun _ => 0%Q))
  (@six Qnum "contact_lfoot" 0%Q 1000000%Q (fun _ => 0%Q)) (guiE n 0) (guiE n 0).
Definition guiQ : sst Qnum := @solver_new Qnum Fast (fun _ _ _ => 0%Q) false St_unknown.
Lemma guiE_uniform n k : uniform (guiE n k).
Proof. intros o a b a' b'. repeat split. Qed.

(** Checking the rules by computation. *)
Definition gruleb (g : gui Qnum) (ev : event Qnum) : bool :=
  match ev, g_at g with
  | Press r, Holds _ => negb (standing g r)
  | Press r, _ => true
  | Comp _ e, Ready => env_okb (b_f (g_b g)) e
  | Solve _ _ x, Holds _ => vlen x =? nVar (b_f (g_b g))
  | Read, Solved x => 12 * count (b_rf (g_b g)) (b_lf (g_b g)) <=? vlen x
  | _, _ => false
  end.
Definition even_event (ev : event Qnum) : Prop := match ev with Comp _ e => uniform e | _ => True end.
Lemma gruleb_ok g ev : even_event ev -> gruleb g ev = true -> rule g ev.
Proof.
  unfold gruleb, rule, enabled, even_event. destruct ev as [r|t e|jk ans z|]; destruct (g_at g) as [|d|x|]; intros U H; try discriminate; (split; [exact I|]); try exact I.
  - apply negb_true_iff. exact H.
  - apply env_okb_ok; assumption.
  - apply Nat.eqb_eq. exact H.
  - intros x' E. injection E as <-. apply Nat.leb_le. exact H.
Qed.
Fixpoint gplay dbg (g : gui Qnum) (l : list (event Qnum)) : option (gui Qnum * list (option nat)) :=
  match l with
  | [] => Some (g, [])
  | ev :: l' => if gruleb g ev then match gstep dbg exC g ev with
                  | Ret g1 o => match gplay dbg g1 l' with Some (g2, r) => Some (g2, option_map (@vlen Qnum) o :: r) | None => None end
                  | _ => None end else None
  end.
Lemma gplay_reach dbg l : Forall even_event l -> forall g0 g g' r, reach (gstep dbg exC) rule g0 g -> gplay dbg g l = Some (g', r) -> reach (gstep dbg exC) rule g0 g'.
Proof.
  induction 1 as [|ev l Ho _ IH]; intros g0 g g' r R E; cbn [gplay] in E; [injection E as <- _; exact R|].
  destruct (gruleb g ev) eqn:B; [|discriminate]. destruct (gstep dbg exC g ev) as [g1 o| |] eqn:S; try discriminate.
  destruct (gplay dbg g1 l) as [[g2 r2]|] eqn:P; [|discriminate]. injection E as <- _. eapply IH; [|exact P].
  eapply reach_step; [exact R|apply gruleb_ok; eassumption|]. rewrite S. reflexivity.
Qed.
Lemma gplay_reached dbg n l g r : 2 <= n -> Forall even_event l -> match guiS n dbg with Some b => gplay dbg (mkGui b Ready guiQ) l | None => None end = Some (g, r) ->
  reached dbg exC n 2 g.
Proof.
  intros Hn F. destruct (guiS n dbg) as [b0|] eqn:E; [|intros X; discriminate X]. unfold guiS in E. intros P. exists (mzero n n), (vzero n), 0%Q, 1000000%Q, (fun _ => 0%Q), (fun _ => 0%Q), (guiE n 0), (guiE n 0), b0, guiQ.
  split; [reflexivity|]. split; [repeat split; discriminate || reflexivity|]. split; [exact E|].
  split; [exists (fun _ _ _ => 0%Q), false, St_unknown; apply reach_init|]. eapply gplay_reach; [exact F|apply reach_init|exact P].
Qed.
Definition at_place (g : gui Qnum) : nat := match g_at g with Ready => 0 | Holds _ => 1 | Solved _ => 2 | Stopped => 3 end.
Definition gsee (o : option (gui Qnum * list (option nat))) : option (nat * bool * bool * nat * list (option nat)) :=
  match o with Some (g, r) => Some (at_place g, b_rf (g_b g), b_lf (g_b g), nVar (b_f (g_b g)), r) | None => None end.
(** A button after solve and before the read, then both buttons before the next period, one of
    them again between computeProblemData and solve, and again before the read. *)
Definition guiL : list (event Qnum) :=
  let sol n := @Solve Qnum (fun _ _ _ => 0%Q) F_optimal (vzero n) in
  [@Comp Qnum 0%Q (guiE 24 24); sol 48; Press true; Read; Press true; Press false; @Comp Qnum 0%Q (guiE 24 12); Press false; sol 48; Press true; Read; @Comp Qnum 0%Q (guiE 24 12)].
Example C109_case : forall dbg, gsee (match guiS 24 dbg with Some b => gplay dbg (mkGui b Ready guiQ) guiL | None => None end) =
    Some (1, false, true, 36, [None; None; None; Some 24; None; None; None; None; None; None; Some 24; None]) /\
  exists g, reached dbg exC 24 2 g /\ standing g false = true /\ (exists d, g_at g = Holds d).
Proof.
  intros dbg. assert (H : gsee (match guiS 24 dbg with Some b => gplay dbg (mkGui b Ready guiQ) guiL | None => None end) =
    Some (1, false, true, 36, [None; None; None; Some 24; None; None; None; None; None; None; Some 24; None])) by (destruct dbg; vm_compute; reflexivity).
  split; [exact H|]. destruct (match guiS 24 dbg with Some b => gplay dbg (mkGui b Ready guiQ) guiL | None => None end) as [[g r]|] eqn:E; [|discriminate H].
  exists g. split; [apply (gplay_reached dbg 24 guiL g r); [lia|repeat constructor; apply guiE_uniform|exact E]|].
  cbn [gsee] in H. injection H as H1 _ H2 _ _. split; [exact H2|]. unfold at_place in H1. clear - H1. destruct (g_at g); try discriminate H1. eauto.
Qed.
(** 8 velocities: no foot in contact when the problem is solved, both when it is read. *)
Example C109_case_short : forall dbg, exists g z, reached dbg exC 8 2 g /\ g_at g = Solved z /\ vlen z < 12 * count (b_rf (g_b g)) (b_lf (g_b g)).
Proof.
  intros dbg. set (l := [Press true; Press false; @Comp Qnum 0%Q (guiE 8 0); @Solve Qnum (fun _ _ _ => 0%Q) F_optimal (vzero 8); Press true; Press false] : list (event Qnum)).
  assert (H : match guiS 8 dbg with Some b => match gplay dbg (mkGui b Ready guiQ) l with Some (g, _) => match g_at g with Solved z => Some (vlen z, b_rf (g_b g), b_lf (g_b g)) | _ => None end | None => None end | None => None end
      = Some (8, true, true)) by (destruct dbg; vm_compute; reflexivity).
  destruct (guiS 8 dbg) as [b|] eqn:Eb; [|discriminate H]. destruct (gplay dbg (mkGui b Ready guiQ) l) as [[g r]|] eqn:E; [|discriminate H].
  destruct (g_at g) as [| |z|] eqn:Ea; try discriminate H. injection H as H1 H2 H3. exists g, z. split; [|split; [exact Ea|rewrite H1, H2, H3; cbn; lia]].
  eapply (gplay_reached dbg 8 l g r); [lia|repeat constructor; apply guiE_uniform|]. rewrite Eb. exact E.
Qed.
