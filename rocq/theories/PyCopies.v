(** Constraints that compute and getConstraint of the tasks return in Python:
    /repo/include/tsid/bindings/python/tasks/*.hpp.  They are new objects built from parts of
    the constraint of the task. *)
From Coq Require Import String List Arith Bool ZArith Reals Lia Lra.
From Verif Require Import Scalar Outcome Linalg Constraint FormPhysSpec RSum Masks MaskReal JointBounds JointSpec JointReal JointLimits JointViab JointTask JointPva
  Check Solvers SolverSpec JointMaskSize JointTasks JointTasksP JointRefute JointTasksR FrameTasks FrameTasksP ForceTasks ForceTasksR ForceCop TaskDims.
Import ListNotations.
Open Scope nat_scope.

Section M.
Context {K : num}.
(** ConstraintEquality(name, A, b), constraint-equality.cpp:31-36; None: the throw.  Used in
    task-actuation-equality.hpp:86-102, task-am-equality.hpp:86-101,
    task-com-equality.hpp:101-116, task-contact-force-equality.hpp:85-102,
    task-cop-equality.hpp:55-70, task-joint-posture.hpp:102-117,
    task-se3-equality.hpp:104-119, task-two-frames-equality.hpp:90-105. *)
Definition py_eq (c : constr K) : option (constr K) :=
  if mrows (c_mat c) =? vlen (c_vec c)
  then Some (mkConstr (c_name c) CEq (c_mat c) (c_vec c) (vzero 0) (vzero 0)) else None.
(** ConstraintInequality(name, A, lb, ub), constraint-inequality.cpp:20-28.  Used in
    task-actuation-bounds.hpp:68-83. *)
Definition py_ineq (c : constr K) : option (constr K) :=
  if (mrows (c_mat c) =? vlen (c_lb c)) && (mrows (c_mat c) =? vlen (c_ub c))
  then Some (mkConstr (c_name c) CIneq (c_mat c) (vzero 0) (c_lb c) (c_ub c)) else None.
(** ConstraintBound(name, lb, ub), constraint-bound.cpp:19-27.  Used in
    task-joint-bounds.hpp:77-92 and task-joint-posVelAcc-bounds.hpp:109-124. *)
Definition py_bound (c : constr K) : option (constr K) :=
  if vlen (c_lb c) =? vlen (c_ub c)
  then Some (mkConstr (c_name c) CBound (mident (vlen (c_lb c)) (vlen (c_lb c))) (vzero 0) (c_lb c) (c_ub c)) else None.

(** Specification: all that can be read from the copy is what can be read from the
    original. *)
Definition reads_same (c c' : constr K) : Prop :=
  c_name c' = c_name c /\ c_kind c' = c_kind c /\ c_mat c' = c_mat c /\
  match c_kind c with CEq => c_vec c' = c_vec c | _ => c_lb c' = c_lb c /\ c_ub c' = c_ub c end.
Definition copied (copy : constr K -> option (constr K)) (c : constr K) : Prop := exists c', copy c = Some c' /\ reads_same c c'.

Lemma copied_eq c d : c_kind c = CEq -> has_rows c d -> copied py_eq c.
Proof.
  intros HK. unfold has_rows, copied, py_eq, reads_same. rewrite HK. intros [A B].
  replace (mrows (c_mat c) =? vlen (c_vec c)) with true by (symmetry; apply Nat.eqb_eq; lia).
  eexists. split; [reflexivity|]. cbn. auto.
Qed.
Lemma copied_ineq c d : c_kind c = CIneq -> has_rows c d -> copied py_ineq c.
Proof.
  intros HK. unfold has_rows, copied, py_ineq, reads_same. rewrite HK. intros (A & B & C).
  replace (mrows (c_mat c) =? vlen (c_lb c)) with true by (symmetry; apply Nat.eqb_eq; lia).
  replace (mrows (c_mat c) =? vlen (c_ub c)) with true by (symmetry; apply Nat.eqb_eq; lia).
  eexists. split; [reflexivity|]. cbn. auto.
Qed.
End M.

(** * Faithful copies *)
Theorem copies_joint : (forall dif name neu nqa nv na s, na <= nv -> nqa <= vlen neu -> tmade Rtrunc dif name neu nqa nv na s -> copied py_eq (t_c s)) /\
  (forall name na s, umade Rtrunc name na s -> copied py_ineq (u_c s)) /\
  (forall name na s, emade Rtrunc name na s -> copied py_eq (e_c s)) /\
  (forall (K : num) name nv na (s : jb K), na <= nv -> jmade name nv na s -> copied py_bound (b_c s)).
Proof.
  split; [|split; [|split]].
  - intros dif name neu nqa nv na s Hn Hq M. eapply copied_eq; [|apply (dim_posture Rtrunc dif good_ones_R _ _ _ _ _ _ Hn Hq M)].
    apply (ti_kind _ _ _ _ _ _ _ (tmade_inv Rtrunc dif good_ones_R _ _ _ _ _ _ Hn Hq M)).
  - intros name na s M. eapply copied_ineq; [|apply (dim_bounds Rtrunc good_ones_R _ _ _ M)].
    apply (ui_kind _ _ _ _ (umade_inv Rtrunc good_ones_R _ _ _ M)).
  - intros name na s M. eapply copied_eq; [|apply (dim_actuation Rtrunc good_ones_R _ _ _ M)].
    apply (ei_kind _ _ _ _ (emade_inv Rtrunc good_ones_R _ _ _ M)).
  - intros K name nv na s Hn M. destruct (jmade_inv name nv na s Hn M) as (_ & _ & _ & _ & _ & _ & _ & _ & K1 & K2 & L & U & _).
    unfold copied, py_bound, reads_same. rewrite L, U, Nat.eqb_refl, K1, K2. eexists. split; [reflexivity|]. cbn. auto.
Qed.
Theorem copies_frames (K : num) (toZ : K -> Z) log3 name nv :
  (forall s, se3_made toZ log3 name nv s -> copied py_eq (h_c (x_h s))) /\
  (forall s, tf_made toZ log3 name nv s -> copied py_eq (h_c (y_h s))) /\
  (forall s : comt K, com_made toZ name nv s -> copied py_eq (h_c (z_h s))) /\
  (forall s : amt K, am_made name nv s -> copied py_eq (o_c s)).
Proof.
  destruct (dim_frames toZ log3 name nv) as (D1 & D2 & D3 & D4).
  split; [|split; [|split]]; intros s M.
  - eapply copied_eq; [|apply (D1 s M)]. exact (hi_kind _ _ _ _ _ (xi_h _ _ _ (se3_inv toZ log3 name nv s M))).
  - eapply copied_eq; [|apply (D2 s M)]. exact (hi_kind _ _ _ _ _ (yi_h _ _ _ (tf_inv toZ log3 name nv s M))).
  - eapply copied_eq; [|apply (D3 s M)]. exact (hi_kind _ _ _ _ _ (zi_h _ _ _ (com_inv toZ name nv s M))).
  - eapply copied_eq; [|apply (D4 s M)]. destruct (am_inv name nv s M) as [_ H1 _ _ _]. exact H1.
Qed.
Lemma cf_kind (K : num) name cname (dt : K) s : reach cf_step (fun _ _ => True) (cf_new name cname dt) s -> c_kind (r_c s) = CEq /\ vlen (c_vec (r_c s)) = 6 /\ vlen (r_int s) = 6.
Proof.
  apply (reach_inv cf_step (fun _ _ => True) (fun s => c_kind (r_c s) = CEq /\ vlen (c_vec (r_c s)) = 6 /\ vlen (r_int s) = 6)); [cbn; auto|].
  clear. intros s o s' (I2 & I4 & I1) _ E.
  assert (C : forall B, after (match cf_compute s B with Some s' => Ret s' tt | None => Undef end) = Some s' ->
    c_kind (r_c s') = CEq /\ vlen (c_vec (r_c s')) = 6 /\ vlen (r_int s') = 6).
  { intros B X. destruct (cf_compute s B) as [s2|] eqn:Y; [|discriminate]. cbn in X. injection X as <-.
    destruct (cf_compute_def s B I1 I2 (cf_compute_sizes s s2 B I1 Y)) as (s3 & Z & A1 & _ & A2 & A3 & A4 & _). rewrite Y in Z. injection Z as <-. auto. }
  destruct o; cbn [cf_step] in E; try (destruct (_ =? 6)); try (cbn in E; injection E as <-; cbn; auto; fail); [apply (C B E)|].
  destruct (_ && _); [apply (C B E)|]. cbn in E. injection E as <-. auto.
Qed.
(** A force generator with a number of rows other than six, e.g. of a point contact, makes
    the copy throw. *)
Theorem copies_force (K : num) name cname (dt : K) s : reach cf_step (fun _ _ => True) (cf_new name cname dt) s ->
  if mrows (c_mat (r_c s)) =? 6 then copied py_eq (r_c s) else py_eq (r_c s) = None.
Proof.
  intros R. destruct (cf_kind K name cname dt s R) as (HK & HV & _).
  destruct (mrows (c_mat (r_c s)) =? 6) eqn:E.
  - apply Nat.eqb_eq in E. apply (copied_eq _ 6%Z HK). unfold has_rows. rewrite HK, E, HV. auto.
  - unfold py_eq. rewrite HV, E. reflexivity.
Qed.
Theorem copies_cop (K : num) name (s : copt K) : cop_made name s -> copied py_eq (q_c s).
Proof. intros M. eapply copied_eq; [|apply (dim_cop name s M)]. apply (cop_inv name s M). Qed.

(** * TaskJointPosVelAccBounds: the matrix is lost *)
Lemma sat_bound (c : constr Rnum) y : c_kind c = CBound -> (sat c y <-> forall i, i < vlen (c_lb c) -> (vget (c_lb c) i <= y i <= vget (c_ub c) i)%R).
Proof. intros H. unfold sat. rewrite H. split; intros Z i Hi; specialize (Z i Hi); rewrite (lhs_bound c y i H) in *; exact Z. Qed.
(** The copy is about a vector of the [na] actuated accelerations. *)
Theorem copy_pva name nv na dt (s s' : rpva) q v : na <= nv -> pmade steady name nv na dt s -> rstep s (PCompute q v) = Ret s' tt ->
  exists c', py_bound (p_c s') = Some c' /\ c_name c' = c_name (p_c s') /\ crows c' = Some na /\ ccols c' = Some na /\
    forall y, sat (p_c s') y <-> sat c' (fun i => y (nv - na + i)).
Proof.
  intros Hn Hm E. destruct (pmade_inv _ _ _ _ _ Hn Hm) as (_ & I1 & _ & _ & _ & _ & _ & _ & _ & _ & _ & I11 & I12 & _).
  destruct (pva_compute_len _ _ _ _ E) as [Q V].
  destruct (pva_compute_ok s q v Q V) as (t & E' & _ & _ & _ & _ & C4 & C5 & C6 & C7 & _). rewrite E' in E. injection E as <-.
  rewrite I11 in C4. rewrite I1 in C6, C7. rewrite <- C5 in I12.
  unfold py_bound. rewrite C6, C7, Nat.eqb_refl. eexists. split; [reflexivity|]. split; [reflexivity|].
  unfold crows, ccols. cbn [c_kind c_lb c_ub]. rewrite C6, C7, Nat.eqb_refl. split; [reflexivity|]. split; [reflexivity|].
  intros y. rewrite (sat_bound (mkConstr _ CBound _ _ _ _) _ eq_refl). cbn [c_lb c_ub]. unfold sat. rewrite C4, C6.
  split; intros H i Hi; specialize (H i Hi); rewrite (full_row nv na _ _ i Hn I12 C4 Hi) in *; exact H.
Qed.
(** It can take the place of the original exactly if the base is fixed. *)
Theorem copy_pva_fixed name nv na dt (s s' : rpva) q v c' : na <= nv -> pmade steady name nv na dt s -> rstep s (PCompute q v) = Ret s' tt ->
  py_bound (p_c s') = Some c' -> (cwf nv c' <-> na = nv) /\ (na = nv -> forall y, sat c' y <-> sat (p_c s') y).
Proof.
  intros Hn Hm E H. destruct (copy_pva _ _ _ _ _ _ _ _ Hn Hm E) as (c2 & H2 & _ & Hr & _ & HS). rewrite H in H2. injection H2 as <-.
  assert (HK : c_kind c' = CBound) by (unfold py_bound in H; destruct (_ =? _); [injection H as <-; reflexivity|discriminate]).
  split.
  - unfold cwf. rewrite HK. unfold crows in Hr. rewrite HK in Hr. destruct (_ =? _) eqn:X; [|discriminate]. apply Nat.eqb_eq in X. injection Hr as Hr. lia.
  - intros Ha y. rewrite HS. replace (nv - na) with 0 by lia. reflexivity.
Qed.

(** Constraints of different widths in level 0 are undefined behaviour in every solver. *)
Lemma counts_widths (K : num) (b : backend) n l acc (w : K) (c : constr K) : In (w, c) l -> ccols c <> Some n -> ofold (count1 b n) l acc = None.
Proof.
  revert acc. induction l as [|a l IH]; intros acc HI HC; [destruct HI|]. cbn [ofold]. destruct HI as [->|HI].
  - unfold count1. destruct acc as [[x y] z]. cbn [snd]. destruct (ccols c) as [k|]; [|reflexivity]. cbn [obind].
    unfold guard. destruct (n =? k) eqn:X; [|reflexivity]. apply Nat.eqb_eq in X. subst. contradiction.
  - destruct (count1 b n acc a); [apply IH; assumption|reflexivity].
Qed.
Theorem widths_undef (K : num) (b : backend) dbg jk (st : sst K) w0 c0 w c cl0 cl1 ans x : In (w, c) cl0 -> ccols c0 <> None -> ccols c <> ccols c0 ->
  solve b dbg jk st [(w0, c0) :: cl0; cl1] ans x = Undef.
Proof.
  intros HI H0 HC. unfold solve, prepare. cbn [List.length Nat.ltb Nat.leb]. unfold level0. cbn [snd].
  destruct (ccols c0) as [n|]; [|contradiction]. cbn [obind]. unfold counts.
  rewrite (counts_widths K b n ((w0, c0) :: cl0) _ w c); [reflexivity|right; exact HI|exact HC].
Qed.
(** On a floating base, a problem over the nv accelerations with the copy in its level 0 is
    undefined behaviour, and the test of a vector of nv accelerations as well. *)
Theorem copy_pva_floating name nv na dt (s s' : rpva) q v : na < nv -> pmade steady name nv na dt s -> rstep s (PCompute q v) = Ret s' tt ->
  exists c', py_bound (p_c s') = Some c' /\
    (forall x tol, vlen x = nv -> check rsqrt c' x tol = None) /\
    forall b dbg jk st w0 c0 w cl0 cl1 ans x, cwf nv c0 -> In (w, c') cl0 -> solve b dbg jk st [(w0, c0) :: cl0; cl1] ans x = Undef.
Proof.
  intros Hn Hm E. destruct (copy_pva _ _ _ _ _ _ _ _ (Nat.lt_le_incl _ _ Hn) Hm E) as (c' & H & _ & Hr & Hc & _). exists c'. split; [exact H|].
  assert (HK : c_kind c' = CBound) by (unfold py_bound in H; destruct (_ =? _); [injection H as <-; reflexivity|discriminate]).
  assert (HL : vlen (c_ub c') = na).
  { unfold crows in Hr. rewrite HK in Hr. destruct (_ =? _) eqn:X; [|discriminate]. apply Nat.eqb_eq in X. injection Hr as Hr. lia. }
  split.
  - intros x tol Hx. unfold check. rewrite HK. unfold le_all. rewrite HL, Hx. replace (nv =? na) with false by (symmetry; apply Nat.eqb_neq; lia). reflexivity.
  - intros b dbg jk st w0 c0 w cl0 cl1 ans x W HI.
    assert (W' : ccols c0 = Some nv).
    { unfold cwf in W. unfold ccols. destruct (c_kind c0); [destruct W as [-> _]; reflexivity|destruct W as [-> _]; reflexivity|].
      destruct W as [-> ->]. rewrite Nat.eqb_refl. reflexivity. }
    apply (widths_undef Rnum b dbg jk st w0 c0 w c' cl0 cl1 ans x HI); rewrite W'; [discriminate|]. rewrite Hc. intros X. injection X as X. lia.
Qed.

(** A mask has no effect on the copy. *)
Theorem copy_pva_mask (K : num) sq toZ (s s1 s2 t : pva K) jk m q v : c_kind (p_c s) = CIneq ->
  pva_step sq toZ s (PMask jk m) = Ret s1 tt -> pva_step sq toZ s1 (PCompute q v) = Ret s2 tt -> pva_step sq toZ s (PCompute q v) = Ret t tt ->
  py_bound (p_c s2) = py_bound (p_c t) /\ py_bound (p_c t) <> None.
Proof.
  intros HK. cbn [pva_step]. destruct (vlen m =? p_na s); [|discriminate]. unfold pva_mask.
  destruct (set_mask _ _ _ _ _ _) as [d M ax|d ax|]; [|discriminate|discriminate].
  unfold cresize. rewrite HK. cbn [obind]. intros X. injection X as <-. unfold pva_compute.
  cbn [p_na p_nv p_dt p_tds p_dts p_ta p_qmin p_qmax p_dqmax p_ddqmax p_ipos p_ivel p_ivia p_iacc p_pos p_via p_c cset_mat c_name c_kind c_mat c_vec].
  destruct (vtail q (p_na s)) as [qa|]; [|discriminate]. destruct (vtail v (p_na s)) as [va|]; [|discriminate]. cbn [obind].
  intros X Y. injection X as <-. injection Y as <-. unfold py_bound. cbn [p_c c_lb c_ub c_name vlen]. rewrite Nat.eqb_refl. split; [reflexivity|discriminate].
Qed.
