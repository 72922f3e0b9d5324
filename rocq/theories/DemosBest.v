(** The two demos of Demos.v: what the solver is asked for in each period, in the words of the
    program.  No code is modelled here. *)
From Coq Require Import String List Arith Bool ZArith Lia Reals Lra.
From Verif Require Import Scalar Outcome Linalg Constraint Formulation FormSpec FormDataSpec FormPhysSpec RSum FormMain FormDecode Walking WalkingP Sheets SheetBest SoftTasks SoftPlan SoftOrderR.
From Verif Require Import Contacts ContactSpec ContactProofs ContactReal JointTasks JointTasksP JointTasksR MaskReal Masks Demos.
Import ListNotations.
Open Scope string_scope.
Open Scope list_scope.
Open Scope nat_scope.
Local Notation OCompute := Formulation.OCompute.
Local Notation rsum := (@nsum Rnum).

(** * Specification *)
(** [z] minimises [F] among what [P] admits. *)
Definition best (P : (nat -> R) -> Prop) (F : (nat -> R) -> R) (z : nat -> R) : Prop := P z /\ forall x, P x -> (F z <= F x)%R.
(** Gripper.  Variables: accelerations, then the closing force.  Torque that moves joint [i]. *)
Definition gripper_tau (nv : nat) (e : env Rnum) (z : nat -> R) (i : nat) : R :=
  (rsum nv (fun j => mget (e_mass e) i j * z j) + vget (e_nle e) i - rsum 3 (fun k => jac e 0 k i * z (nv + k)%nat))%R.
Definition gripper_can (nv : nat) (lim : nat -> R) (e : env Rnum) (z : nat -> R) : Prop :=
  (forall q, q < nv -> 2 <= q -> (Rabs (gripper_tau nv e z q) <= lim q)%R) /\ (forall q, q < nv -> q < 2 -> gripper_tau nv e z q = 0%R) /\ (forall k, k < 3 -> (Rabs (z (nv + k)%nat) <= 1000)%R).
(** Fingertip, posture, closed chain, small closing force; [r]: regularisation of the back-end. *)
Definition gripper_cost (nv : nat) (e : env Rnum) (r : R) (z : nat -> R) : R :=
  (gap (e_task e 0) z + / 1000 * gap (e_task e 1) z + eq_gap (fst (e_cmotion e 0)) (snd (e_cmotion e 0)) z +
   / 100000 * eq_gap (fst (e_creg e 0)) (snd (e_creg e 0)) (fun k => z (nv + k)%nat) + r * rsum (nv + 3) (fun i => z i * z i))%R.
(** Quadruped.  Variables: accelerations, then the forces of the paws. *)
Definition quadruped_can (nv : nat) (e : env Rnum) (z : nat -> R) : Prop :=
  (forall k, k < 4 -> level_pyramid (3 / 10) 1 100 (paw_at nv z k)) /\
  forall i, i < nv - (nv - 6) -> (rsum nv (fun j => mget (e_mass e) i j * z j) + vget (e_nle e) i = rsum 4 (fun k => rsum 3 (fun j => jac e k j i * paw_at nv z k j)))%R.
(** Centre of mass, posture, paws that stay where they are, small forces. *)
Definition quadruped_cost (nv : nat) (e : env Rnum) (r : R) (z : nat -> R) : R :=
  (gap (e_task e 0) z + / 1000 * gap (e_task e 1) z +
   rsum 4 (fun k => eq_gap (fst (e_cmotion e k)) (snd (e_cmotion e k)) z + / 100000 * eq_gap (fst (e_creg e k)) (snd (e_creg e k)) (paw_at nv z k)) + r * rsum (nv + 12) (fun i => z i * z i))%R.

(** * Proofs *)
Lemma abs_both (x a : R) : (Rabs x <= a)%R -> (- a <= x <= a)%R.
Proof. intros H. assert (A := Rle_abs x). assert (B := Rle_abs (- x)). rewrite Rabs_Ropp in B. lra. Qed.
Lemma gripper_effort nv b e z i : effort nv (gripper_sheet nv b) e z i = gripper_tau nv e z i.
Proof.
  unfold effort, gripper_tau, lsum. change (places (gripper_sheet nv b)) with [(0, 0, 3)]. cbn [map fold_right]. rewrite Nat.add_0_r. lra.
Qed.
Lemma gripper_means jk nv lim b e z : gripper_data jk nv lim e -> obeyed nv nv (gripper_sheet nv b) e z <-> gripper_can nv lim e z.
Proof.
  intros De. destruct De as (_ & (_ & _ & _ & _ & _ & _ & _ & _ & Ec) & _ & _ & u & Eu & Du).
  destruct (bounds_ok jk nv lim) as (u' & Eu' & _ & _ & B). rewrite Eu in Eu'. injection Eu' as <-.
  assert (Bs : (forall q, q < nv -> (- vget (tau_max nv lim) q <= gripper_tau nv e z q <= vget (tau_max nv lim) q)%R) <->
    (forall q, q < nv -> 2 <= q -> (Rabs (gripper_tau nv e z q) <= lim q)%R) /\ (forall q, q < nv -> q < 2 -> gripper_tau nv e z q = 0%R)).
  { cbn [tau_max vget]. split.
    - intros H. split; intros q Hq Hp; specialize (H q Hq).
      + replace (q <? 2) with false in H by (symmetry; apply Nat.ltb_ge; lia). apply Rabs_le. exact H.
      + replace (q <? 2) with true in H by (symmetry; apply Nat.ltb_lt; lia). lra.
    - intros [H1 H2] q Hq. destruct (Nat.ltb_spec q 2) as [Hp|Hp]; [rewrite (H2 q Hq Hp); lra|]. specialize (H1 q Hq Hp). apply abs_both in H1. lra. }
  assert (Bf : (let '(C, lb, ub) := e_cforce e 0 (co_fmin closure) (co_fmax closure) in in_holds C lb ub (fun r => z (nv + 0 + r))) <-> forall k, k < 3 -> (Rabs (z (nv + k)%nat) <= 1000)%R).
  { rewrite Ec. rewrite (parts_sat (force_ineq rsq K2 closure_name (vzero 0) 0%R (co_fmin closure) (co_fmax closure)) _ eq_refl).
    change (co_fmin closure) with (-1000)%R. change (co_fmax closure) with 1000%R. rewrite box_sat. rewrite Nat.add_0_r. split; intros H k Hk; specialize (H k Hk).
    - apply Rabs_le. lra.
    - apply abs_both in H. lra. }
  split.
  - intros Ob. assert (A := ob_act _ _ _ _ _ Ob 2 "task-actuation-bounds" (or_introl eq_refl)). rewrite Du, B, Nat.sub_diag in A.
    assert (Q := proj1 Bf (ob_force _ _ _ _ _ Ob 0 0 3 closure (or_introl eq_refl) eq_refl)).
    destruct (proj1 Bs) as [B1 B2]; [intros q Hq; rewrite <- (gripper_effort nv b); exact (A q Hq)|]. split; [exact B1|]. split; [exact B2|exact Q].
  - intros (C1 & C2 & C3). assert (A := proj2 Bs (conj C1 C2)). constructor.
    + intros i Hi. exfalso. clear -Hi. lia.
    + intros o a n x [Hi|[]] Hx. injection Hi as <- <- <-. injection Hx as <-. exact (proj2 Bf C3).
    + intros id n [Hi|[]]. injection Hi as <- <-. rewrite Du. apply B. intros q Hq. rewrite Nat.sub_diag, (gripper_effort nv b). exact (A q Hq).
Qed.
Lemma gripper_price nv b e z : price nv nv (gripper_sheet nv b) e z = (gap (e_task e 0) z + / 1000 * gap (e_task e 1) z + eq_gap (fst (e_cmotion e 0)) (snd (e_cmotion e 0)) z +
   / 100000 * eq_gap (fst (e_creg e 0)) (snd (e_creg e 0)) (fun k => z (nv + k)%nat))%R.
Proof.
  unfold price. change (places (gripper_sheet nv b)) with [(0, 0, 3)]. cbn [gripper_sheet sh_book sh_objs].
  assert (W : forall n, weight_in (gripper_sheet nv b) n = ((if String.eqb "task-fingertip-position" n then 1 else 0) + ((if String.eqb "task-posture" n then / 1000 else 0) +
    ((if String.eqb (closure_name ++ "_motion_task") n then 1 else 0) + ((if String.eqb (closure_name ++ "_force_reg_task") n then / 100000 else 0) + 0))))%R) by (intros n; reflexivity).
  unfold lsum. cbn [map fold_right]. rewrite !W. change (oname [closure] 0) with closure_name. rewrite Nat.add_0_r.
  cbn -[gap eq_gap Rinv]. lra.
Qed.
Lemma quadruped_effort nv b e z i : effort nv (quadruped_sheet nv b) e z i = (rsum nv (fun j => mget (e_mass e) i j * z j) + vget (e_nle e) i - rsum 4 (fun k => rsum 3 (fun j => jac e k j i * paw_at nv z k j)))%R.
Proof.
  unfold effort, lsum. change (places (quadruped_sheet nv b)) with [(0, 0, 3); (1, 3, 3); (2, 6, 3); (3, 9, 3)]. cbn [map fold_right]. rewrite four.
  unfold paw_at. cbn [Nat.mul Nat.add]. lra.
Qed.
Lemma quadruped_means nv b e z : quadruped_data nv e -> obeyed nv (nv - 6) (quadruped_sheet nv b) e z <-> quadruped_can nv e z.
Proof.
  intros De. split.
  - intros Ob. split.
    + intros k Hk. assert (Ek : exists n, nth_error paw_names k = Some n) by (destruct k as [|[|[|[|k]]]]; [eexists; reflexivity..|lia]). destruct Ek as (n & En).
      apply (paw_force nv k n e _ De En). apply (ob_force _ _ _ _ _ Ob k (3 * k) 3 (paw n)).
      * destruct k as [|[|[|[|k]]]]; [cbn; auto 6..|lia].
      * cbn [quadruped_sheet sh_objs]. rewrite nth_error_map, En. reflexivity.
    + intros i Hi. assert (B := ob_base _ _ _ _ _ Ob i Hi). rewrite quadruped_effort in B. lra.
  - intros [C1 C2]. constructor.
    + intros i Hi. rewrite quadruped_effort. specialize (C2 i Hi). lra.
    + intros o a n x Hi Hx. assert (Ho : o < 4 /\ a = 3 * o) by (cbn in Hi; destruct Hi as [Hi|[Hi|[Hi|[Hi|[]]]]]; injection Hi as <- <- <-; lia). destruct Ho as [Ho ->].
      cbn [quadruped_sheet sh_objs] in Hx. rewrite nth_error_map in Hx. destruct (nth_error paw_names o) as [m|] eqn:En; [|discriminate Hx]. injection Hx as <-.
      apply (paw_force nv o m e _ De En). exact (C1 o Ho).
    + intros id n [].
Qed.
Lemma quadruped_price nv b e z : price nv (nv - 6) (quadruped_sheet nv b) e z = (gap (e_task e 0) z + / 1000 * gap (e_task e 1) z +
   rsum 4 (fun k => eq_gap (fst (e_cmotion e k)) (snd (e_cmotion e k)) z + / 100000 * eq_gap (fst (e_creg e k)) (snd (e_creg e k)) (paw_at nv z k)))%R.
Proof.
  unfold price. change (places (quadruped_sheet nv b)) with [(0, 0, 3); (1, 3, 3); (2, 6, 3); (3, 9, 3)]. change (sh_objs (quadruped_sheet nv b)) with (map paw paw_names).
  change (sh_book (quadruped_sheet nv b)) with ([(0, "task-com", 1); (1, "task-posture", 1)], @nil (nat * string * nat), @nil (nat * string * nat), @nil (nat * string), @nil (ctrans Rnum)).
  rewrite four. unfold lsum. cbn [map fold_right]. unfold paw_at. cbn [Nat.mul Nat.add]. rewrite !Nat.add_0_r.
  assert (W1 : weight_in (quadruped_sheet nv b) "task-com" = 1%R) by (cbn -[Rinv]; lra). assert (W2 : weight_in (quadruped_sheet nv b) "task-posture" = (/ 1000)%R) by (cbn -[Rinv]; lra).
  assert (W3 : forall k, k < 4 -> weight_in (quadruped_sheet nv b) (oname (map paw paw_names) k ++ "_motion_task") = 1%R) by (intros k Hk; destruct k as [|[|[|[|k]]]]; [cbn -[Rinv]; lra..|lia]).
  assert (W4 : forall k, k < 4 -> weight_in (quadruped_sheet nv b) (oname (map paw paw_names) k ++ "_force_reg_task") = (/ 100000)%R) by (intros k Hk; destruct k as [|[|[|[|k]]]]; [cbn -[Rinv]; lra..|lia]).
  change [paw "BL_contact"; paw "BR_contact"; paw "FL_contact"; paw "FR_contact"] with (map paw paw_names). rewrite W1, W2, !W3, !W4 by lia. lra.
Qed.
Theorem gripper_best dbg jk nv lim M0 H0 e0 l s t e s' r y : FormMain.robot_ok nv M0 H0 -> robot_data nv e0 -> Forall (gripper_period jk nv lim) l ->
  calls dbg (init nv nv M0 H0) (gripper_calls nv e0 l) = Some s -> gripper_data jk nv lim e -> @Formulation.step Rnum dbg s (@OCompute Rnum t e) = Ret s' OutUnit ->
  planned dbg nv nv M0 H0 (fun _ => "") e s' r y ->
  best (gripper_can nv lim e) (gripper_cost nv e r) (vget y) /\
  ((0 < r)%R -> forall z, best (gripper_can nv lim e) (gripper_cost nv e r) z -> forall i, i < nv + 3 -> z i = vget y i).
Proof.
  intros R0 D0 F Es De E P. destruct (gripper_now dbg jk nv lim M0 H0 e0 R0 D0 l s F Es) as (b & N). assert (Df := gripper_fits jk nv lim e b De).
  destruct (now_best dbg nv nv M0 H0 R0 _ s t e s' r y N Df E P) as (Ob & Mi & Un).
  assert (C : forall z, gripper_cost nv e r z = (price nv nv (gripper_sheet nv b) e z + r * square nv (gripper_sheet nv b) z)%R) by (intros z; rewrite gripper_price; reflexivity).
  split.
  - split; [apply (gripper_means jk nv lim b e _ De), Ob|]. intros x Hx. rewrite !C. apply Mi, (gripper_means jk nv lim b e _ De), Hx.
  - intros Hr z [Cz Mz]. apply (Un Hr z); [apply (gripper_means jk nv lim b e _ De), Cz|]. rewrite <- !C. apply Mz, (gripper_means jk nv lim b e _ De), Ob.
Qed.
Theorem quadruped_best dbg nv M0 H0 e0 l s t e s' r y : FormMain.robot_ok nv M0 H0 -> robot_data nv e0 -> Forall (quadruped_period nv) l ->
  calls dbg (init nv (nv - 6) M0 H0) (quadruped_calls nv e0 l) = Some s -> quadruped_data nv e -> @Formulation.step Rnum dbg s (@OCompute Rnum t e) = Ret s' OutUnit ->
  planned dbg nv (nv - 6) M0 H0 (fun _ => "") e s' r y ->
  best (quadruped_can nv e) (quadruped_cost nv e r) (vget y) /\
  ((0 < r)%R -> forall z, best (quadruped_can nv e) (quadruped_cost nv e r) z -> forall i, i < nv + 12 -> z i = vget y i).
Proof.
  intros R0 D0 F Es De E P. destruct (quadruped_now dbg nv M0 H0 e0 R0 D0 l s F Es) as (b & N). assert (Df := quadruped_fits nv e b De).
  destruct (now_best dbg nv (nv - 6) M0 H0 R0 _ s t e s' r y N Df E P) as (Ob & Mi & Un).
  assert (C : forall z, quadruped_cost nv e r z = (price nv (nv - 6) (quadruped_sheet nv b) e z + r * square nv (quadruped_sheet nv b) z)%R) by (intros z; rewrite quadruped_price; reflexivity).
  split.
  - split; [apply (quadruped_means nv b e _ De), Ob|]. intros x Hx. rewrite !C. apply Mi, (quadruped_means nv b e _ De), Hx.
  - intros Hr z [Cz Mz]. apply (Un Hr z); [apply (quadruped_means nv b e _ De), Cz|]. rewrite <- !C. apply Mz, (quadruped_means nv b e _ De), Ob.
Qed.
