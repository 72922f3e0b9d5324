(** dim() of the tasks against the constraint they hand out, after every history of calls.
    po = src/tasks/task-joint-posture.cpp, ab = task-actuation-bounds.cpp,
    ae = task-actuation-equality.cpp, se = task-se3-equality.cpp,
    tf = task-two-frames-equality.cpp, co = task-com-equality.cpp,
    am = task-angular-momentum-equality.cpp, cp = task-cop-equality.cpp,
    ca = task-capture-point-inequality.cpp, cf = task-contact-force-equality.cpp,
    jb = task-joint-bounds.cpp, pva = task-joint-posVelAcc-bounds.cpp. *)
From Coq Require Import String List Arith Bool ZArith QArith Reals Lia Lra.
From Verif Require Import Scalar Outcome Linalg Constraint FormPhysSpec RSum Masks MaskReal JointBounds JointSpec JointReal JointLimits JointViab JointTask JointPva
  SolverSpec JointMaskSize JointTasks JointTasksP JointRefute JointTasksR FrameTasks FrameTasksP ForceTasks ForceTasksR ForceCop.
Import ListNotations.
Open Scope nat_scope.

(** * Model: the remaining dim() functions ([post_dim] po:56 and [actb_dim] ab:44 are in
    JointTasks.v) *)
Section M.
Context {K : num} (toZ : K -> Z).
Definition mask_dim (m : vec K) : Z := toZ (nsum (vlen m) (vget m)).
(** ae:51, se:60, tf:63, co:41. *)
Definition acte_dim (s : acte K) : Z := mask_dim (e_mask s).
Definition se3_dim (s : se3t K) : Z := mask_dim (x_mask s).
Definition tf_dim (s : tft K) : Z := mask_dim (y_mask s).
Definition com_dim (s : comt K) : Z := mask_dim (z_mask s).
(** am:28-31, cp:26, ca:48 with m_dim = 2 (ca:28), cf:29. *)
Definition am_dim (s : amt K) : Z := 3.
Definition cop_dim (s : copt K) : Z := 3.
Definition cap_dim (s : capt K) : Z := 2.
Definition cf_dim (s : cft K) : Z := 6.
(** jb:36, pva:125. *)
Definition jb_dim (s : jb K) : Z := Z.of_nat (b_nv s).
Definition pva_dim (s : pva K) : Z := Z.of_nat (p_na s).
End M.

(** * Specification: the constraint has [d] rows and as many right-hand sides. *)
Definition has_rows {K : num} (c : constr K) (d : Z) : Prop :=
  Z.of_nat (mrows (c_mat c)) = d /\
  match c_kind c with
  | CEq => Z.of_nat (vlen (c_vec c)) = d
  | _ => Z.of_nat (vlen (c_lb c)) = d /\ Z.of_nat (vlen (c_ub c)) = d
  end.

(** * Joint tasks *)
Section J.
Context {K : num} (toZ : K -> Z) (dif : vec K -> vec K -> nat -> K).
Hypothesis good_ones : forall n, good_mask toZ (mkVec n (fun _ => n1)).
Theorem dim_posture name neu nqa nv na s : na <= nv -> nqa <= vlen neu -> tmade toZ dif name neu nqa nv na s ->
  has_rows (t_c s) (post_dim toZ s) /\ post_dim toZ s = Z.of_nat (length (actives (t_mask s))) /\
  forall dv a, post_acc s dv = Some a -> Z.of_nat (vlen a) = post_dim toZ s.
Proof.
  intros Hn Hq M. destruct (tmade_inv toZ dif good_ones _ _ _ _ _ _ Hn Hq M) as [_ _ _ _ _ _ _ _ _ _ _ _ R _ HK HV].
  destruct R as (_ & (_ & R2) & _ & (R3 & _) & _). unfold post_dim, has_rows. rewrite HK, R3, HV. unfold counted in R2. rewrite R2.
  split; [split; reflexivity|]. split; [reflexivity|]. intros dv a. unfold post_acc, mvec. destruct (_ =? _); [|discriminate]. intros E. injection E as <-. cbn [vlen].
  rewrite R3. reflexivity.
Qed.
Theorem dim_bounds name na s : umade toZ name na s ->
  has_rows (u_c s) (actb_dim toZ s) /\ actb_dim toZ s = Z.of_nat (length (actives (u_mask s))).
Proof.
  intros M. destruct (umade_inv toZ good_ones _ _ _ M) as [_ R _ HK L U]. destruct R as (_ & (_ & R2) & _ & (R3 & _) & _).
  unfold actb_dim, has_rows. rewrite HK, R3, L, U. unfold counted in R2. rewrite R2. auto.
Qed.
Theorem dim_actuation name na s : emade toZ name na s ->
  has_rows (e_c s) (acte_dim toZ s) /\ acte_dim toZ s = Z.of_nat (length (actives (e_mask s))).
Proof.
  intros M. destruct (emade_inv toZ good_ones _ _ _ M) as [_ _ _ R _ HK V _]. destruct R as (_ & (_ & R2) & _ & (R3 & _) & _).
  unfold acte_dim, mask_dim, has_rows. rewrite HK, R3, V. unfold counted in R2. rewrite R2. auto.
Qed.
End J.
Theorem dim_joint_bounds {K : num} name nv na (s : jb K) : na <= nv -> jmade name nv na s -> has_rows (b_c s) (jb_dim s) /\ jb_dim s = Z.of_nat nv.
Proof.
  intros Hn M. destruct (jmade_inv name nv na s Hn M) as (_ & I2 & _ & _ & _ & _ & _ & _ & K1 & K2 & L & U & _).
  unfold has_rows, jb_dim. rewrite K1, K2, L, U, I2. cbn [mident mrows]. auto.
Qed.

(** * Frame, centre-of-mass and momentum tasks: every mask *)
Section F.
Context {K : num} (toZ : K -> Z) (log3 : (nat -> nat -> K) -> nat -> K).
Lemma mask_nonneg jk m nv h h' : mt_mask toZ jk m nv h = Some h' -> (0 <= mask_dim toZ m)%Z.
Proof. unfold mt_mask, mask_dim. destruct (_ <? 0)%Z eqn:E; [discriminate|]. apply Z.ltb_ge in E. auto. Qed.
Lemma hinv_rows n nv m h : hinv toZ n nv m h -> (0 <= mask_dim toZ m)%Z -> has_rows (h_c h) (mask_dim toZ m).
Proof.
  intros [H1 H2 H3 H4 _ _ _ _ _] Hm. unfold has_rows. rewrite H1, H2, H4. unfold mdim. fold (mask_dim toZ m). rewrite Z2Nat.id by exact Hm. auto.
Qed.
Lemma se3_nonneg name nv s : se3_made toZ log3 name nv s -> (0 <= se3_dim toZ s)%Z.
Proof.
  intros (jk & s0 & E & R). apply (reach_inv (se3_step toZ log3) (fun _ _ => True) (fun s => (0 <= se3_dim toZ s)%Z) s0 s); [| |exact R].
  - unfold se3_new in E. destruct (mt_mask _ _ _ _ _) as [h|] eqn:EH; [|discriminate]. cbn [obind] in E. injection E as <-. exact (mask_nonneg _ _ _ _ _ EH).
  - clear. intros s o s' I _ E. destruct o; cbn [se3_step] in E.
    + destruct (vlen k =? 6); cbn in E; injection E as <-; exact I.
    + destruct (vlen k =? 6); cbn in E; injection E as <-; exact I.
    + unfold se3_ref in E. destruct (vlen val =? 12); [destruct (_ && _); [|discriminate]|]; cbn [after] in E; injection E as <-; exact I.
    + unfold se3_ref in E. cbn [vlen vzero se3_to_vec Nat.eqb andb after] in E. injection E as <-; exact I.
    + destruct (mt_mask _ _ _ _ _) as [h|] eqn:EH; [|discriminate]. cbn [after] in E. injection E as <-. exact (mask_nonneg _ _ _ _ _ EH).
    + cbn [after] in E. injection E as <-. exact I.
    + unfold se3_compute in E. destruct (guard _); [|discriminate]. cbn [obind] in E. destruct (mt_rows _ _ _ _ _ _ _ _ _) as [h|]; [|discriminate].
      cbn [obind after] in E. injection E as <-. exact I.
Qed.
Lemma tf_nonneg name nv s : tf_made toZ log3 name nv s -> (0 <= tf_dim toZ s)%Z.
Proof.
  intros (jk & s0 & E & R). apply (reach_inv (tf_step toZ log3) (fun _ _ => True) (fun s => (0 <= tf_dim toZ s)%Z) s0 s); [| |exact R].
  - unfold tf_new in E. destruct (mt_mask _ _ _ _ _) as [h|] eqn:EH; [|discriminate]. cbn [obind] in E. injection E as <-. exact (mask_nonneg _ _ _ _ _ EH).
  - clear. intros s o s' I _ E. destruct o; cbn [tf_step] in E.
    + destruct (vlen k =? 6); cbn in E; [injection E as <-; exact I|discriminate].
    + destruct (vlen k =? 6); cbn in E; [injection E as <-; exact I|discriminate].
    + destruct (mt_mask _ _ _ _ _) as [h|] eqn:EH; [|discriminate]. cbn [after] in E. injection E as <-. exact (mask_nonneg _ _ _ _ _ EH).
    + destruct (guard _); [|discriminate]. cbn [obind] in E. destruct (mt_rows _ _ _ _ _ _ _ _ _) as [h|]; [|discriminate].
      cbn [obind after] in E. injection E as <-. exact I.
Qed.
Lemma com_nonneg name nv s : com_made toZ name nv s -> (0 <= com_dim toZ s)%Z.
Proof.
  intros (jk & s0 & E & R). apply (reach_inv (com_step toZ) (fun _ _ => True) (fun s => (0 <= com_dim toZ s)%Z) s0 s); [| |exact R].
  - unfold com_new in E. destruct (mt_mask _ _ _ _ _) as [h|] eqn:EH; [|discriminate]. cbn [obind] in E. injection E as <-. exact (mask_nonneg _ _ _ _ _ EH).
  - clear. intros s o s' I _ E. destruct o; cbn [com_step] in E.
    + destruct (vlen k =? 3); cbn in E; injection E as <-; exact I.
    + destruct (vlen k =? 3); cbn in E; injection E as <-; exact I.
    + cbn in E. injection E as <-. exact I.
    + destruct (vlen m =? 3); [|cbn in E; injection E as <-; exact I].
      destruct (mt_mask _ _ _ _ _) as [h|] eqn:EH; [|discriminate]. cbn [after] in E. injection E as <-. exact (mask_nonneg _ _ _ _ _ EH).
    + destruct (guard _); [|discriminate]. cbn [obind] in E. destruct (mt_rows _ _ _ _ _ _ _ _ _) as [h|]; [|discriminate].
      cbn [obind after] in E. injection E as <-. exact I.
Qed.
Theorem dim_frames name nv :
  (forall s, se3_made toZ log3 name nv s -> has_rows (h_c (x_h s)) (se3_dim toZ s)) /\
  (forall s, tf_made toZ log3 name nv s -> has_rows (h_c (y_h s)) (tf_dim toZ s)) /\
  (forall s : comt K, com_made toZ name nv s -> has_rows (h_c (z_h s)) (com_dim toZ s)) /\
  (forall s : amt K, am_made name nv s -> has_rows (o_c s) (am_dim s)).
Proof.
  split; [|split; [|split]]; intros s M.
  - eapply hinv_rows; [apply (se3_inv toZ log3 name nv s M)|apply (se3_nonneg name nv s M)].
  - eapply hinv_rows; [apply (tf_inv toZ log3 name nv s M)|apply (tf_nonneg name nv s M)].
  - eapply hinv_rows; [apply (com_inv toZ name nv s M)|apply (com_nonneg name nv s M)].
  - destruct (am_inv name nv s M) as [_ H1 H2 _ H3]. unfold has_rows, am_dim. rewrite H1, H2, H3. auto.
Qed.
End F.
(** Over the reals dim() is the number of components selected, for masks of zeros and ones. *)
Lemma ons_actives (m : vec Rnum) : mask01 m -> ons (vlen m) m = actives m.
Proof.
  intros H. unfold ons, actives, is_on. apply filter_ext_in. intros i Hi. apply in_seq in Hi. destruct (H i ltac:(lia)) as [E|E]; rewrite E; apply Reqb_true in E.
  - replace (@neqb Rnum (vget m i) n1) with false; [reflexivity|]. symmetry. apply Reqb_false. rewrite E. cbn. lra.
  - replace (@neqb Rnum (vget m i) n0) with false; [reflexivity|]. symmetry. apply Reqb_false. rewrite E. cbn. lra.
Qed.
Theorem dim_selected (m : vec Rnum) : mask01 m -> mask_dim Rtrunc m = Z.of_nat (length (ons (vlen m) m)).
Proof. intros H. unfold mask_dim. rewrite (mask_counted m H), ons_actives by exact H. reflexivity. Qed.

(** * Force tasks *)
Section Q.
Context {K : num}.
Definition six_rows (s : cft K) (o : cfop K) : Prop := match o with RCompute B | RComputeIn _ B => mrows B = 6 | _ => True end.
Theorem dim_force name cname dt s : reach cf_step six_rows (cf_new name cname dt) s -> has_rows (r_c s) (cf_dim s).
Proof.
  intros R. cut (vlen (r_int s) = 6 /\ c_kind (r_c s) = CEq /\ mrows (c_mat (r_c s)) = 6 /\ vlen (c_vec (r_c s)) = 6).
  { intros (_ & H1 & H2 & H3). unfold has_rows, cf_dim. rewrite H1, H2, H3. auto. }
  revert R. apply (reach_inv cf_step six_rows (fun s => vlen (r_int s) = 6 /\ c_kind (r_c s) = CEq /\ mrows (c_mat (r_c s)) = 6 /\ vlen (c_vec (r_c s)) = 6)); [cbn; auto|].
  clear. intros s o s' (I1 & I2 & I3 & I4) Ho E.
  assert (C : forall B, mrows B = 6 -> after (match cf_compute s B with Some s' => Ret s' tt | None => Undef end) = Some s' ->
    vlen (r_int s') = 6 /\ c_kind (r_c s') = CEq /\ mrows (c_mat (r_c s')) = 6 /\ vlen (c_vec (r_c s')) = 6).
  { intros B HB X. destruct (cf_compute s B) as [s2|] eqn:Y; [|discriminate]. cbn in X. injection X as <-.
    destruct (cf_compute_def s B I1 I2 (cf_compute_sizes s s2 B I1 Y)) as (s3 & Z & A1 & _ & A2 & A3 & A4 & _). rewrite Y in Z. injection Z as <-.
    rewrite A3. auto. }
  destruct o; cbn [cf_step] in E; try (destruct (_ =? 6)); try (cbn in E; injection E as <-; cbn; auto; fail); [apply (C B Ho E)|].
  destruct (_ && _); [apply (C B Ho E)|]. cbn in E. injection E as <-. auto.
Qed.
Lemma cop_point_rows (s : copt K) n c A j A' : cop_point s n c A j = Some A' -> mrows A' = mrows A.
Proof. unfold cop_point. destruct (_ <=? n); [|discriminate]. intros E. injection E as <-. reflexivity. Qed.
Lemma ofold_rows {B} (f : mat K -> B -> option (mat K)) l : (forall A b A', f A b = Some A' -> mrows A' = mrows A) -> forall A A', ofold f l A = Some A' -> mrows A' = mrows A.
Proof.
  intros H. induction l as [|b l IH]; intros A A' E; cbn in E; [injection E as <-; reflexivity|]. destruct (f A b) as [A1|] eqn:X; [|discriminate].
  rewrite (IH _ _ E). apply (H _ _ _ X).
Qed.
Theorem dim_cop name (s : copt K) : cop_made name s -> has_rows (q_c s) (cop_dim s).
Proof.
  intros M. destruct (cop_inv name s M) as [I1 I2]. unfold has_rows, cop_dim. rewrite I1, I2. cbn [vzero vlen]. split; [|reflexivity].
  cut (mrows (c_mat (q_c s)) = 3); [intros ->; reflexivity|]. clear I1 I2. revert M. unfold cop_made.
  apply (reach_inv cop_step (fun _ _ => True) (fun s => mrows (c_mat (q_c s)) = 3)); [reflexivity|]. clear. intros s o s' I _ E. destruct o; cbn [cop_step] in E.
  - cbn in E. injection E as <-. exact I.
  - cbn in E. injection E as <-. exact I.
  - unfold cop_compute in E. destruct (ofold _ l _) as [A|] eqn:X; [|discriminate]. cbn in E. injection E as <-. cbn [q_c cset_mat c_mat].
    apply (ofold_rows _ l) in X; [exact X|]. intros A0 c A1 Y. apply (ofold_rows _ _) in Y; [exact Y|]. intros A2 j A3. apply cop_point_rows.
Qed.
End Q.
Theorem dim_capture name nv dt g s : cap_made name nv dt g s -> has_rows (v_c s) (cap_dim s).
Proof.
  intros M. destruct (cap_inv _ _ _ _ _ M) as (_ & _ & _ & H1 & H2 & _). unfold has_rows, cap_dim. rewrite H1, H2. split; [reflexivity|].
  cut (vlen (c_lb (v_c s)) = 2 /\ vlen (c_ub (v_c s)) = 2); [intros [-> ->]; auto|]. clear H1 H2. destruct M as [jk R]. revert R.
  apply (reach_inv cap_stepR (fun _ _ => True) (fun s : capt Rnum => vlen (c_lb (v_c s)) = 2 /\ vlen (c_ub (v_c s)) = 2)); [cbn; auto|].
  clear. intros s o s' I _ E. destruct o; cbn [cap_step] in E.
  - destruct (_ <=? _)%num; cbn in E; injection E as <-; exact I.
  - destruct (_ <=? _)%num; cbn in E; injection E as <-; exact I.
  - cbn in E. injection E as <-. exact I.
  - unfold cap_compute in E. cbv zeta in E. unfold cset_lb, cset_ub in E. destruct (c_kind (v_c s)); cbn [obind] in E; try discriminate; cbn [c_kind obind] in E;
      (destruct (guard _); [|discriminate]); cbn [obind after] in E; injection E as <-; cbn; auto.
Qed.

(** * Where dim() is wrong *)
(** TaskJointPosVelAccBounds ignores its mask. *)
Theorem dim_posvelacc name nv na dt (s : rpva) jk m q v : na <= nv -> pmade any_op name nv na dt s ->
  vlen m = na -> mask01 m -> na <= vlen q -> na <= vlen v ->
  exists s1 s2, rstep s (PMask jk m) = Ret s1 tt /\ rstep s1 (PCompute q v) = Ret s2 tt /\
    pva_dim s2 = Z.of_nat na /\ mrows (c_mat (p_c s2)) = length (actives m) /\ (has_rows (p_c s2) (pva_dim s2) <-> ones m).
Proof.
  intros Hn Hm Hl H01 Hq Hv. destruct (mask_sizes name nv na dt s jk m q v Hn Hm Hl H01 Hq Hv) as (s1 & s2 & E1 & E2 & S & W).
  exists s1, s2. split; [exact E1|]. split; [exact E2|]. destruct S as [S _]. 
  assert (M1 : pmade any_op name nv na dt s1).
  { destruct Hm as (jk0 & s0 & H0 & R). exists jk0, s0. split; [exact H0|]. eapply reach_step with (o := PMask jk m); [exact R|exact I|]. rewrite E1. reflexivity. }
  destruct (pmade_inv0 _ _ _ _ _ Hn M1) as (I1 & _ & I3 & _).
  destruct (pva_compute_ok s1 q v ltac:(lia) ltac:(lia)) as (s3 & E & _ & C1 & _ & _ & C4 & C5 & C6 & C7 & _). rewrite E2 in E. injection E as <-.
  assert (P : p_na s2 = na).
  { destruct (pmade_inv0 name nv na dt s2 Hn) as (X & _); [|exact X]. destruct M1 as (jk0 & s0 & H0 & R). exists jk0, s0. split; [exact H0|].
    eapply reach_step with (o := PCompute q v); [exact R|exact I|]. rewrite E2. reflexivity. }
  unfold pva_dim. rewrite P. split; [reflexivity|]. split; [exact S|]. unfold has_rows. rewrite C4, I3, S, C6, C7, I1. split.
  - intros [X _]. apply actives_all; [lia|exact H01].
  - intros O. rewrite (ones_actives m O), seq_length, Hl. auto 10.
Qed.
(** With all joints active it is right. *)
Definition all_joints (s : rpva) (o : pvaop Rnum) : Prop := match o with PMask _ m => vlen m = p_na s -> ones m | _ => True end.
Theorem dim_posvelacc_all name nv na dt (s : rpva) : na <= nv -> pmade all_joints name nv na dt s -> has_rows (p_c s) (pva_dim s) /\ pva_dim s = Z.of_nat na.
Proof.
  intros Hn (jk & s0 & H0 & R).
  cut (p_na s = na /\ p_nv s = nv /\ c_kind (p_c s) = CIneq /\ mrows (c_mat (p_c s)) = na /\ vlen (c_lb (p_c s)) = na /\ vlen (c_ub (p_c s)) = na).
  { intros (I1 & _ & I3 & I4 & I5 & I6). unfold has_rows, pva_dim. rewrite I1, I3, I4, I5, I6. auto. }
  revert R. apply (reach_inv rstep all_joints (fun s : rpva => p_na s = na /\ p_nv s = nv /\ c_kind (p_c s) = CIneq /\ mrows (c_mat (p_c s)) = na /\ vlen (c_lb (p_c s)) = na /\ vlen (c_ub (p_c s)) = na)).
  - assert (Hd : (0 < dt)%R).
    { unfold pva_new in H0. destruct (@nltb Rnum (@n0 Rnum) dt) eqn:E; [apply Rltb_true in E; exact E|discriminate]. }
    destruct (pva_new_ok jk name nv na dt Hn Hd) as (t & E & (I1 & I2 & _ & _ & _ & _ & _ & _ & _ & _ & I3 & (I4 & _) & I5 & I6) & _). rewrite E in H0. injection H0 as <-. auto 10.
  - clear H0. intros s1 o s2 I Ho. assert (I' := I). destruct I as (I1 & I2 & I3 & I4 & I5 & I6). destruct o as [h|l u|u|u|a b c d|j m|b|q v]; cbn [pva_step].
    + destruct (_ <? _)%num; intros X; injection X as <-; exact I'.
    + destruct (_ && _); intros X; injection X as <-; exact I'.
    + destruct (_ =? _); intros X; injection X as <-; exact I'.
    + destruct (_ =? _); intros X; injection X as <-; exact I'.
    + intros X; injection X as <-; exact I'.
    + destruct (vlen m =? p_na s1) eqn:EM; [|intros X; injection X as <-; exact I']. apply Nat.eqb_eq in EM.
      destruct (pva_mask_ones j nv na s1 m Hn I1 I2 I3 ltac:(lia) (Ho EM)) as (M & ax & -> & (F1 & _)). cbn [after]. intros X. injection X as <-.
      cbn [p_na p_nv p_c c_kind c_mat c_lb c_ub vzero vlen]. auto 10.
    + intros X; injection X as <-; exact I'.
    + destruct (pva_compute rsqrt s1 q v) as [t|] eqn:E; [|discriminate]. unfold pva_compute in E. destruct (vtail q _); [|discriminate]. destruct (vtail v _); [|discriminate].
      cbn [obind] in E. injection E as <-. intros X; injection X as <-. cbn [p_na p_nv p_c c_kind c_mat c_lb c_ub vlen]. auto 10.
Qed.
(** After a mask that is refused by an exception, dim() is that of the refused mask. *)
Theorem dim_rejected dif name neu : vlen neu = 1 -> forall jk, exists (s s1 : post Rnum), tmade Rtrunc dif name neu 1 1 1 s /\
  post_step Rtrunc dif s (TMask jk (v1 2)) = Exc s1 /\ post_dim Rtrunc s = 1%Z /\ post_dim Rtrunc s1 = 2%Z /\ t_c s1 = t_c s.
Proof.
  intros Hn jk. destruct (post_new_ok Rtrunc good_ones_R (fun _ => 0) name neu 1 1 1) as (s & E & I & M); [lia|lia|].
  assert (Hm : tmade Rtrunc dif name neu 1 1 1 s) by (exists (fun _ => 0), s; split; [exact E|apply reach_init]).
  destruct (mask2_throws jk 1 0 (fun _ => n1)) as (ax & EX).
  exists s. cbn [post_step]. rewrite (ti_na _ _ _ _ _ _ _ I). cbn [v1 vlen Nat.eqb]. unfold post_mask.
  rewrite (ti_nv _ _ _ _ _ _ _ I), (ti_na _ _ _ _ _ _ _ I). cbn [Nat.sub]. fold (v1 2). rewrite EX. eexists. split; [exact Hm|]. split; [reflexivity|].
  destruct (dim_posture Rtrunc dif good_ones_R name neu 1 1 1 s) as (_ & D & _); [lia|lia|exact Hm|]. split.
  - rewrite D, M, ones_actives; [reflexivity|]. intros i _. reflexivity.
  - split; [|reflexivity]. unfold post_dim. cbn [t_mask v1 vlen vget nsum].
    change (@nadd Rnum n0 2%R) with (0 + 2)%R. replace (0 + 2)%R with (INR 2) by (cbn; lra). rewrite Rtrunc_INR. reflexivity.
Qed.
