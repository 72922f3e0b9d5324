(** Masks, reported quantities and failed calls of the frame, centre-of-mass and
    angular-momentum tasks, with counterexamples. *)
From Coq Require Import String List Arith Bool ZArith QArith Reals Lia Lra.
From Verif Require Import Scalar Outcome Linalg Constraint FormPhysSpec RSum Masks MaskReal JointTask JointTasksP JointTasksR FrameTasks FrameTasksP FrameTasksR.
Import ListNotations.
Open Scope list_scope.
Open Scope nat_scope.

(** * 0/1 masks *)
Lemma ons_actives (m : vec Rnum) : mask01 m -> ons (vlen m) m = actives m.
Proof.
  intros H. unfold ons, actives. apply filter_ext_in. intros i Hi. apply in_seq in Hi. destruct (H i) as [X|X]; [lia| |].
  - unfold is_on. rewrite X. apply Reqb_true in X. rewrite X. apply Reqb_false. change (@n0 Rnum) with 0%R; change (@n1 Rnum) with 1%R; lra.
  - unfold is_on. rewrite X. apply Reqb_true in X. rewrite X. symmetry. apply negb_true_iff, Reqb_false. change (@n0 Rnum) with 0%R; change (@n1 Rnum) with 1%R; lra.
Qed.
Lemma mdim_01 (m : vec Rnum) : mask01 m -> mdim Rtrunc m = length (ons (vlen m) m) /\ (0 <= Rtrunc (rsum (vlen m) (vget m)))%Z.
Proof. intros H. rewrite ons_actives by exact H. unfold mdim. rewrite (mask_counted m H). split; lia. Qed.
Definition ones_n (n : nat) : vec Rnum := @mkVec Rnum n (fun _ => 1%R).
Lemma ones_n_01 n : mask01 (ones_n n).
Proof. intros i _. right. apply Reqb_true. reflexivity. Qed.
Lemma ons_ones n : ons n (ones_n n) = seq 0 n.
Proof. change n with (vlen (ones_n n)) at 1. rewrite ons_actives by apply ones_n_01. apply ones_actives. intros i _. reflexivity. Qed.

Section S.
Variable log3 : rmat -> rvec.
Local Notation xstep := (@se3_step Rnum Rtrunc log3).
Local Notation ystep := (@tf_step Rnum Rtrunc log3).
Local Notation zstep := (@com_step Rnum Rtrunc).
(** Every call succeeds or throws as long as masks have the size of the task and entries
    0 and 1, and reference samples have derivatives of the size of the task. *)
Definition xgood (_ : se3t Rnum) (o : se3op Rnum) : Prop :=
  match o with XMask _ m => vlen m = 6 /\ mask01 m | XRef val der sec => vlen val = 12 -> vlen der = 6 /\ vlen sec = 6 | _ => True end.
Definition ygood (_ : tft Rnum) (o : tfop Rnum) : Prop :=
  match o with YMask _ m => vlen m = 6 /\ mask01 m | YKp k | YKd k => vlen k = 6 | _ => True end.
Definition zgood (_ : comt Rnum) (o : comop Rnum) : Prop :=
  match o with ZMask _ m => vlen m = 3 -> mask01 m | ZRef a b c => vlen a = 3 /\ vlen b = 3 /\ vlen c = 3 | _ => True end.
Definition ogood (nv : nat) (_ : amt Rnum) (o : amop Rnum) : Prop :=
  match o with ORef a b _ => vlen a = 3 /\ vlen b = 3 | OCompute v _ => vlen v = nv | _ => True end.
Lemma reach_any {S O A} (st : S -> O -> outcome S A) (P : S -> O -> Prop) s0 s : reach st P s0 s -> reach st (fun _ _ => True) s0 s.
Proof. induction 1; [constructor|]. econstructor; eauto. Qed.
Theorem se3_safe jk name nv : exists s0, se3_new Rtrunc jk name nv = Some s0 /\
  forall s, reach xstep xgood s0 s -> (vlen (x_mask s) = 6 /\ mask01 (x_mask s)) /\ forall o, xgood s o -> xstep s o <> Undef.
Proof.
  assert (N : exists s0, se3_new Rtrunc jk name nv = Some s0 /\ vlen (x_mask s0) = 6 /\ mask01 (x_mask s0)).
  { unfold se3_new. destruct (proj1 (mask_def Rtrunc jk nv (ones_n 6) (mkMt (new_eq name 6 nv) (vzero 0) (vzero 0) (vzero 0) (vzero 0)) eq_refl)) as [h E].
    - apply (mdim_01 (ones_n 6)), ones_n_01.
    - change (mkVec 6 (fun _ => @n1 Rnum)) with (ones_n 6). rewrite E. cbn [obind]. eexists. split; [reflexivity|]. split; [reflexivity|apply ones_n_01]. }
  destruct N as (s0 & E0 & M0). exists s0. split; [exact E0|]. intros s R.
  assert (MM : se3_made Rtrunc log3 name nv s) by (exists jk, s0; split; [exact E0|eapply reach_any; exact R]).
  assert (I : vlen (x_mask s) = 6 /\ mask01 (x_mask s)).
  { revert R. apply (reach_inv _ _ (fun s => vlen (x_mask s) = 6 /\ mask01 (x_mask s))); [exact M0|]. clear. intros s o s' I G E. destruct o; cbn [se3_step] in E.
    - destruct (_ =? _); cbn [after] in E; injection E as <-; exact I.
    - destruct (_ =? _); cbn [after] in E; injection E as <-; exact I.
    - unfold se3_ref in E. destruct (_ =? 12); [destruct (_ && _); [|discriminate]|]; cbn [after] in E; injection E as <-; exact I.
    - unfold se3_ref in E. cbn [vlen vzero se3_to_vec Nat.eqb andb after] in E. injection E as <-; exact I.
    - destruct (mt_mask _ _ _ _ _); [|discriminate]. cbn [after] in E. injection E as <-. exact G.
    - cbn [after] in E. injection E as <-. exact I.
    - unfold se3_compute in E. destruct (guard _); [|discriminate]. cbn [obind] in E. destruct (mt_rows _ _ _ _ _ _ _ _ _); [|discriminate]. cbn [obind after] in E. injection E as <-. exact I. }
  split; [exact I|]. intros o G. destruct (se3_inv _ _ _ _ _ MM) as [I1 I2 I3 I4]. destruct o; cbn [se3_step].
  - destruct (_ =? _); discriminate.
  - destruct (_ =? _); discriminate.
  - unfold se3_ref. destruct (vlen val =? 12) eqn:X; [|discriminate]. apply Nat.eqb_eq in X. destruct (G X) as [-> ->]. discriminate.
  - discriminate.
  - destruct (proj1 (mask_def Rtrunc jk0 (x_nv s) m (x_h s) (hi_kind _ _ _ _ _ I4))) as [h E]; [apply mdim_01; apply G|]. rewrite E. discriminate.
  - discriminate.
  - destruct (proj2 (se3_defined Rtrunc log3 name nv s d MM)) as [s' E].
    + destruct I as [L H]. split; [lia|]. destruct (mdim_01 _ H) as [-> _]. rewrite L. lia.
    + cbn [se3_step] in E. rewrite E. discriminate.
Qed.
Theorem tf_safe jk name nv : exists s0, tf_new Rtrunc jk name nv = Some s0 /\
  forall s, reach ystep ygood s0 s -> (vlen (y_mask s) = 6 /\ mask01 (y_mask s)) /\ forall o, ygood s o -> exists s', ystep s o = Ret s' tt.
Proof.
  assert (N : exists s0, tf_new Rtrunc jk name nv = Some s0 /\ vlen (y_mask s0) = 6 /\ mask01 (y_mask s0)).
  { unfold tf_new. destruct (proj1 (mask_def Rtrunc jk nv (ones_n 6) (mkMt (new_eq name 6 nv) (vzero 0) (vzero 0) (vzero 0) (vzero 0)) eq_refl)) as [h E].
    - apply (mdim_01 (ones_n 6)), ones_n_01.
    - change (mkVec 6 (fun _ => @n1 Rnum)) with (ones_n 6). rewrite E. cbn [obind]. eexists. split; [reflexivity|]. split; [reflexivity|apply ones_n_01]. }
  destruct N as (s0 & E0 & M0). exists s0. split; [exact E0|]. intros s R.
  assert (MM : tf_made Rtrunc log3 name nv s) by (exists jk, s0; split; [exact E0|eapply reach_any; exact R]).
  assert (I : vlen (y_mask s) = 6 /\ mask01 (y_mask s)).
  { revert R. apply (reach_inv _ _ (fun s => vlen (y_mask s) = 6 /\ mask01 (y_mask s))); [exact M0|]. clear. intros s o s' I G E. destruct o; cbn [tf_step] in E.
    - destruct (_ =? _); [|discriminate]; cbn [after] in E; injection E as <-; exact I.
    - destruct (_ =? _); [|discriminate]; cbn [after] in E; injection E as <-; exact I.
    - destruct (mt_mask _ _ _ _ _); [|discriminate]. cbn [after] in E. injection E as <-. exact G.
    - destruct (guard _); [|discriminate]. cbn [obind] in E. destruct (mt_rows _ _ _ _ _ _ _ _ _); [|discriminate]. cbn [obind after] in E. injection E as <-. exact I. }
  split; [exact I|]. intros o G. destruct (tf_inv _ _ _ _ _ MM) as [I1 I2 I3 I4]. destruct o.
  - cbn [tf_step]. cbn in G. rewrite G. eexists; reflexivity.
  - cbn [tf_step]. cbn in G. rewrite G. eexists; reflexivity.
  - cbn [tf_step]. destruct (proj1 (mask_def Rtrunc jk0 (y_nv s) m (y_h s) (hi_kind _ _ _ _ _ I4))) as [h E]; [apply mdim_01; apply G|]. rewrite E. eexists; reflexivity.
  - apply (tf_defined Rtrunc log3 name nv s d1 d2 MM). destruct I as [L H]. split; [lia|]. destruct (mdim_01 _ H) as [-> _]. rewrite L. lia.
Qed.
Theorem com_safe jk name nv : exists s0, com_new Rtrunc jk name nv = Some s0 /\
  forall s, reach zstep zgood s0 s -> (vlen (z_mask s) = 3 /\ mask01 (z_mask s)) /\ forall o, zgood s o -> zstep s o <> Undef.
Proof.
  assert (N : exists s0, com_new Rtrunc jk name nv = Some s0 /\ (vlen (z_mask s0) = 3 /\ mask01 (z_mask s0)) /\ vlen (z_val s0) = 3 /\ vlen (z_der s0) = 3 /\ vlen (z_sec s0) = 3).
  { unfold com_new. destruct (proj1 (mask_def Rtrunc jk nv (ones_n 3) (mkMt (new_eq name 3 nv) (vzero 0) (vzero 0) (vzero 0) (vzero 0)) eq_refl)) as [h E].
    - apply (mdim_01 (ones_n 3)), ones_n_01.
    - change (mkVec 3 (fun _ => @n1 Rnum)) with (ones_n 3). rewrite E. cbn [obind]. eexists. split; [reflexivity|]. split; [split; [reflexivity|apply ones_n_01]|]. repeat split. }
  destruct N as (s0 & E0 & M0). exists s0. split; [exact E0|]. intros s R.
  assert (MM : com_made Rtrunc name nv s) by (exists jk, s0; split; [exact E0|eapply reach_any; exact R]).
  assert (I : (vlen (z_mask s) = 3 /\ mask01 (z_mask s)) /\ vlen (z_val s) = 3 /\ vlen (z_der s) = 3 /\ vlen (z_sec s) = 3).
  { revert R. apply (reach_inv _ _ (fun s => (vlen (z_mask s) = 3 /\ mask01 (z_mask s)) /\ vlen (z_val s) = 3 /\ vlen (z_der s) = 3 /\ vlen (z_sec s) = 3)); [exact M0|].
    clear. intros s o s' I G E. destruct o; cbn [com_step] in E.
    - destruct (_ =? _); cbn [after] in E; injection E as <-; exact I.
    - destruct (_ =? _); cbn [after] in E; injection E as <-; exact I.
    - cbn [after] in E. injection E as <-. split; [apply I|exact G].
    - destruct (vlen m =? 3) eqn:X; [|cbn [after] in E; injection E as <-; exact I]. apply Nat.eqb_eq in X. destruct (mt_mask _ _ _ _ _); [|discriminate].
      cbn [after] in E. injection E as <-. split; [split; [exact X|exact (G X)]|apply I].
    - destruct (guard _); [|discriminate]. cbn [obind] in E. destruct (mt_rows _ _ _ _ _ _ _ _ _); [|discriminate]. cbn [obind after] in E. injection E as <-. exact I. }
  split; [apply I|]. intros o G. destruct (com_inv _ _ _ _ MM) as [I1 I2 I3]. destruct o; cbn [com_step]; try (destruct (_ =? _); discriminate); try discriminate.
  - destruct (vlen m =? 3) eqn:X; [|discriminate]. apply Nat.eqb_eq in X.
    destruct (proj1 (mask_def Rtrunc jk0 (z_nv s) m (z_h s) (hi_kind _ _ _ _ _ I3))) as [h E]; [apply mdim_01; exact (G X)|]. rewrite E. discriminate.
  - destruct (proj2 (com_defined Rtrunc name nv s d MM)) as [s' E].
    + destruct I as ((L & H) & I). repeat split; try apply I. destruct (mdim_01 _ H) as [-> _]. rewrite L. lia.
    + cbn [com_step] in E. rewrite E. discriminate.
Qed.
Theorem am_safe name nv s : reach am_step (ogood nv) (am_new name nv) s -> forall o, ogood nv s o -> am_step s o <> Undef.
Proof.
  intros R. assert (MM : am_made name nv s) by (eapply reach_any; exact R).
  assert (I : vlen (o_val s) = 3 /\ vlen (o_der s) = 3).
  { revert R. apply (reach_inv _ _ (fun s => vlen (o_val s) = 3 /\ vlen (o_der s) = 3)); [split; reflexivity|]. clear. intros s o s' I G E. destruct o; cbn [am_step] in E.
    - destruct (_ =? _); cbn [after] in E; injection E as <-; exact I.
    - destruct (_ =? _); cbn [after] in E; injection E as <-; exact I.
    - cbn [after] in E. injection E as <-. exact G.
    - unfold am_compute in E. destruct (guard _); [|discriminate]. cbn [obind] in E. destruct (guard _); [|discriminate]. cbn [obind] in E.
      destruct (cset_vec _ _); [|discriminate]. cbn [obind after] in E. injection E as <-. exact I. }
  intros o G. destruct (am_inv _ _ _ MM) as [I1 I2 I3 I4 I5]. destruct o; cbn [am_step]; try (destruct (_ =? _); discriminate); try discriminate.
  cbn in G. unfold am_compute. rewrite G, I1, I3, I4, !Nat.eqb_refl. destruct I as [-> ->]. cbn [Nat.eqb andb guard obind]. unfold cset_vec, cset_mat. cbn [c_kind]. rewrite I2. discriminate.
Qed.
End S.

(** * Failed calls *)
Theorem se3_exc log3 (s s' : se3t Rnum) o : @se3_step Rnum Rtrunc log3 s o = Exc s' ->
  s' = s \/ exists val der sec, o = XRef val der sec /\ vlen val <> 12 /\
    s' = mkSe3t (x_nv s) (x_kp s) (x_kd s) (x_pd s) (x_Rd s) (x_vd s) (x_ad s) val der sec (x_local s) (x_mask s) (x_p s) (x_v s) (x_pr s) (x_vr s) (x_h s).
Proof.
  destruct o; cbn [se3_step]; intros E.
  - destruct (_ =? _); [discriminate|injection E as <-; auto].
  - destruct (_ =? _); [discriminate|injection E as <-; auto].
  - unfold se3_ref in E. destruct (vlen val =? 12) eqn:X; [destruct (_ && _); discriminate|]. injection E as <-. right. exists val, der, sec. apply Nat.eqb_neq in X. auto.
  - discriminate.
  - destruct (mt_mask _ _ _ _ _); discriminate.
  - discriminate.
  - destruct (se3_compute _ _ _); discriminate.
Qed.
Theorem others_exc : (forall log3 (s s' : tft Rnum) o, @tf_step Rnum Rtrunc log3 s o = Exc s' -> s' = s) /\
  (forall (s s' : comt Rnum) o, com_step Rtrunc s o = Exc s' -> s' = s) /\ (forall (s s' : amt Rnum) o, am_step s o = Exc s' -> s' = s).
Proof.
  split; [|split].
  - intros log3 s s' o E. destruct o; cbn [tf_step] in E.
    + destruct (_ =? _); discriminate.
    + destruct (_ =? _); discriminate.
    + destruct (mt_mask _ _ _ _ _); discriminate.
    + destruct (obind _ _); discriminate.
  - intros s s' o E. destruct o; cbn [com_step] in E.
    + destruct (_ =? _); [discriminate|injection E as <-; auto].
    + destruct (_ =? _); [discriminate|injection E as <-; auto].
    + discriminate.
    + destruct (_ =? _); [destruct (mt_mask _ _ _ _ _); discriminate|injection E as <-; auto].
    + destruct (obind _ _); discriminate.
  - intros s s' o E. destruct o; cbn [am_step] in E.
    + destruct (_ =? _); [discriminate|injection E as <-; auto].
    + destruct (_ =? _); [discriminate|injection E as <-; auto].
    + discriminate.
    + destruct (am_compute _ _ _); discriminate.
Qed.

(** * Reported errors *)
Theorem se3_errors log3 name nv (s : se3t Rnum) (d : fdata Rnum) s' : reads9 log3 -> @se3_made Rnum Rtrunc log3 name nv s -> orthogonal (d_R d) ->
  @se3_step Rnum Rtrunc log3 s (XCompute d) = Ret s' tt -> forall j i, nth_error (ons 6 (x_mask s)) j = Some i ->
  (i < 3 -> vget (h_pe (x_h s')) j = (if x_local s then rot (tr (d_R d)) (vminus (x_pd s) (d_p d)) i else x_pd s i - d_p d i)%R /\
            vget (h_ve (x_h s')) j = (if x_local s then rot (tr (d_R d)) (x_vd s) i - d_v d i else x_vd s i - rot (d_R d) (d_v d) i)%R) /\
  (forall k, i = 3 + k -> vget (h_pe (x_h s')) j = (if x_local s then rot_error log3 (d_R d) (x_Rd s) k else rot (d_R d) (rot_error log3 (d_R d) (x_Rd s)) k)%R /\
            vget (h_ve (x_h s')) j = (if x_local s then rot (tr (d_R d)) (ang (x_vd s)) k - d_v d i else x_vd s i - rot (d_R d) (ang (d_v d)) k)%R) /\
  veq (x_v s') (mkVec 6 (d_v d)) /\ veq (x_vr s') (mkVec 6 (x_vd s)).
Proof.
  intros HL M O E j i Hj. destruct (se3_done _ _ _ _ _ _ _ M E) as (_ & _ & _ & _ & V1 & V2 & _ & _ & D). destruct D as (_ & _ & _ & H3).
  destruct (H3 j i Hj) as (_ & _ & _ & _ & P & V). rewrite P, V. assert (Hi : i < 6) by (apply nth_error_In, ons_on in Hj; apply Hj).
  split; [|split; [|rewrite V1, V2; split; split; reflexivity]].
  - intros H. unfold se3_pe, se3_ve. destruct (x_local s).
    + rewrite err_lin, inv_lin by exact H. split; reflexivity.
    + rewrite !act_lin by exact H. rewrite (rot_ext _ _ (rot (tr (d_R d)) (vminus (x_pd s) (d_p d)))) by (intros k Hk; apply err_lin; exact Hk).
      rewrite (proj1 (O _ i H)). split; reflexivity.
  - intros k ->. assert (H : k < 3) by lia. unfold se3_pe, se3_ve. destruct (x_local s).
    + rewrite err_ang, inv_ang by (exact HL || exact H). split; reflexivity.
    + rewrite !act_ang by exact H. rewrite (rot_ext _ (ang (@se3_error Rnum _ _ _ _ _)) (rot_error log3 (d_R d) (x_Rd s))) by (intros q Hq; apply err_ang; [exact HL|exact Hq]).
      split; reflexivity.
Qed.
Theorem com_errors name nv (s : comt Rnum) (d : cdata Rnum) s' : @com_made Rnum Rtrunc name nv s -> com_step Rtrunc s (ZCompute d) = Ret s' tt ->
  forall j i, nth_error (ons 3 (z_mask s)) j = Some i ->
    vget (h_pe (z_h s')) j = (g_p d i - vget (z_val s) i)%R /\ vget (h_ve (z_h s')) j = (g_v d i - vget (z_der s) i)%R.
Proof.
  intros M E j i Hj. destruct (com_done _ _ _ _ _ _ M E) as (_ & _ & _ & _ & _ & _ & D). destruct D as (_ & _ & _ & H3).
  destruct (H3 j i Hj) as (_ & _ & _ & _ & P & V). rewrite P, V. split; reflexivity.
Qed.

(** * Concrete states *)
Definition Rz : rmat := fun i j => match i, j with 0, 1 => (-1)%R | 1, 0 => 1%R | 2, 2 => 1%R | _, _ => 0%R end.
Lemma Rz_orth : orthogonal Rz.
Proof. intros x i Hi. destruct i as [|[|[|i]]]; [| | |lia]; unfold rot, tr, Rz; split; ring. Qed.
Definition unit_k (k : nat) : rvec := fun i => if i =? k then 1%R else 0%R.
Definition id6 : rmat := fun i j => if i =? j then 1%R else 0%R.
Section Start.
Variables (log3 : rmat -> rvec) (name : string) (nv : nat).
Lemma se3_start : exists s, se3_made Rtrunc log3 name nv s /\ x_mask s = ones_n 6 /\ x_local s = true /\ x_kp s = @vzero Rnum 6 /\ x_kd s = @vzero Rnum 6.
Proof.
  unfold se3_made, se3_new. destruct (proj1 (mask_def Rtrunc (vzero 0) nv (ones_n 6) (mkMt (new_eq name 6 nv) (vzero 0) (vzero 0) (vzero 0) (vzero 0)) eq_refl)) as [h E].
  - apply (mdim_01 (ones_n 6)), ones_n_01.
  - eexists. split; [exists (vzero 0); eexists; split; [change (mkVec 6 (fun _ => @n1 Rnum)) with (ones_n 6); rewrite E; reflexivity|constructor]|]. repeat split.
Qed.
Lemma com_start : exists s, com_made Rtrunc name nv s /\ z_mask s = ones_n 3 /\ z_kp s = (fun _ => 0%R) /\ z_kd s = (fun _ => 0%R) /\
  z_val s = @vzero Rnum 3 /\ z_der s = @vzero Rnum 3 /\ z_sec s = @vzero Rnum 3.
Proof.
  unfold com_made, com_new. destruct (proj1 (mask_def Rtrunc (vzero 0) nv (ones_n 3) (mkMt (new_eq name 3 nv) (vzero 0) (vzero 0) (vzero 0) (vzero 0)) eq_refl)) as [h E].
  - apply (mdim_01 (ones_n 3)), ones_n_01.
  - eexists. split; [exists (vzero 0); eexists; split; [change (mkVec 3 (fun _ => @n1 Rnum)) with (ones_n 3); rewrite E; reflexivity|constructor]|]. repeat split.
Qed.
Lemma tf_start : exists s, tf_made Rtrunc log3 name nv s /\ y_mask s = ones_n 6.
Proof.
  unfold tf_made, tf_new. destruct (proj1 (mask_def Rtrunc (vzero 0) nv (ones_n 6) (mkMt (new_eq name 6 nv) (vzero 0) (vzero 0) (vzero 0) (vzero 0)) eq_refl)) as [h E].
  - apply (mdim_01 (ones_n 6)), ones_n_01.
  - eexists. split; [exists (vzero 0); eexists; split; [change (mkVec 6 (fun _ => @n1 Rnum)) with (ones_n 6); rewrite E; reflexivity|constructor]|]. repeat split.
Qed.
Lemma se3_go s o s' : se3_made Rtrunc log3 name nv s -> @se3_step Rnum Rtrunc log3 s o = Ret s' tt -> se3_made Rtrunc log3 name nv s'.
Proof. intros (jk & s0 & E & R) H. exists jk, s0. split; [exact E|]. econstructor; [exact R|exact I|rewrite H; reflexivity]. Qed.
(** A task with given gains, reference and frame. *)
Lemma se3_config (kp kd val der sec : vec Rnum) b : vlen kp = 6 -> vlen kd = 6 -> vlen val = 12 -> vlen der = 6 -> vlen sec = 6 ->
  exists s, se3_made Rtrunc log3 name nv s /\ x_mask s = ones_n 6 /\ x_local s = b /\ x_kp s = kp /\ x_kd s = kd /\
    x_pd s = (fun i => vget val i) /\ x_Rd s = (fun a b => vget val (3 + (3 * b + a))) /\ x_vd s = vget der /\ x_ad s = vget sec.
Proof.
  intros H1 H2 H3 H4 H5. destruct se3_start as (s0 & M0 & A0 & _).
  assert (E1 : exists s1, @se3_step Rnum Rtrunc log3 s0 (XKp kp) = Ret s1 tt /\ x_mask s1 = x_mask s0 /\ x_kp s1 = kp).
  { cbn [se3_step]. rewrite H1. eexists. split; [reflexivity|]. split; reflexivity. }
  destruct E1 as (s1 & E1 & A1 & B1). assert (M1 := se3_go _ _ _ M0 E1).
  assert (E2 : exists s2, @se3_step Rnum Rtrunc log3 s1 (XKd kd) = Ret s2 tt /\ x_mask s2 = x_mask s1 /\ x_kp s2 = x_kp s1 /\ x_kd s2 = kd).
  { cbn [se3_step]. rewrite H2. eexists. split; [reflexivity|]. repeat split. }
  destruct E2 as (s2 & E2 & A2 & B2 & C2). assert (M2 := se3_go _ _ _ M1 E2).
  assert (E3 : exists s3, @se3_step Rnum Rtrunc log3 s2 (XLocal b) = Ret s3 tt /\ x_mask s3 = x_mask s2 /\ x_kp s3 = x_kp s2 /\ x_kd s3 = x_kd s2 /\ x_local s3 = b).
  { cbn [se3_step]. eexists. split; [reflexivity|]. repeat split. }
  destruct E3 as (s3 & E3 & A3 & B3 & C3 & D3). assert (M3 := se3_go _ _ _ M2 E3).
  assert (E4 : exists s4, @se3_step Rnum Rtrunc log3 s3 (XRef val der sec) = Ret s4 tt /\ x_mask s4 = x_mask s3 /\ x_kp s4 = x_kp s3 /\ x_kd s4 = x_kd s3 /\ x_local s4 = x_local s3 /\
     x_pd s4 = (fun i => vget val i) /\ x_Rd s4 = (fun a b => vget val (3 + (3 * b + a))) /\ x_vd s4 = vget der /\ x_ad s4 = vget sec).
  { cbn [se3_step]. unfold se3_ref. rewrite H3, H4, H5. cbn [Nat.eqb andb]. eexists. split; [reflexivity|]. repeat split. }
  destruct E4 as (s4 & E4 & A4 & B4 & C4 & D4 & F4). assert (M4 := se3_go _ _ _ M3 E4).
  exists s4. split; [exact M4|]. split; [congruence|]. split; [congruence|]. split; [congruence|]. split; [congruence|]. exact F4.
Qed.
Lemma se3_runs s d : se3_made Rtrunc log3 name nv s -> x_mask s = ones_n 6 -> exists s', @se3_step Rnum Rtrunc log3 s (XCompute d) = Ret s' tt.
Proof.
  intros M A. apply (se3_defined Rtrunc log3 name nv s d M). rewrite A. split; [cbn; lia|]. destruct (mdim_01 _ (ones_n_01 6)) as [-> _]. cbn [vlen ones_n]. lia.
Qed.
End Start.
Definition v6 (f : rvec) : vec Rnum := @mkVec Rnum 6 f.
Definition v12 (f : rvec) : vec Rnum := @mkVec Rnum 12 f.
(** Gains that differ between the axes: the frame matters. *)
Theorem anisotropic_refuted log3 name1 name2 : reads9 log3 -> exists (s t s' t' : se3t Rnum) (d : fdata Rnum) y,
  se3_made Rtrunc log3 name1 6 s /\ se3_made Rtrunc log3 name2 6 t /\ same_but_frame s t /\ x_local s = true /\ x_local t = false /\
  orthogonal (d_R d) /\ (forall i, i < 6 -> on (x_mask s) i) /\
  @se3_step Rnum Rtrunc log3 s (XCompute d) = Ret s' tt /\ @se3_step Rnum Rtrunc log3 t (XCompute d) = Ret t' tt /\ sat (h_c (x_h s')) y /\ ~ sat (h_c (x_h t')) y.
Proof.
  intros HL. set (z := v6 (fun _ => 0%R)). set (k := v6 (unit_k 0)). set (val := v12 (unit_k 0)).
  destruct (se3_config log3 name1 6 k z val z z true) as (s & M1 & A1 & B1 & C1 & D1 & F1 & G1 & H1 & K1); auto.
  destruct (se3_config log3 name2 6 k z val z z false) as (t & M2 & A2 & B2 & C2 & D2 & F2 & G2 & H2 & K2); auto.
  set (d := @mkFd Rnum Rz (fun _ => 0%R) (fun _ => 0%R) (fun _ => 0%R) id6).
  destruct (se3_runs log3 name1 6 s d M1 A1) as [s' E1]. destruct (se3_runs log3 name2 6 t d M2 A2) as [t' E2].
  exists s, t, s', t', d, (fun _ => 0%R). split; [exact M1|]. split; [exact M2|]. split; [unfold same_but_frame; repeat split; congruence|]. split; [exact B1|]. split; [exact B2|].
  assert (O : orthogonal (d_R d)) by exact Rz_orth. split; [exact O|]. split; [intros i _; rewrite A1; reflexivity|]. split; [exact E1|]. split; [exact E2|].
  assert (Z : forall i, accel 6 (d_J d) (d_a d) (fun _ => 0%R) i = 0%R).
  { intros i. unfold accel. rewrite rsum_zero by (intros; cbn; ring). cbn. lra. }
  split.
  - apply (se3_meaning_local log3 HL _ _ _ _ _ M1 B1 E1). split; intros i Hi _.
    + rewrite Z. unfold local_lin. rewrite C1, D1, F1, H1, K1. destruct i as [|[|[|i]]]; [| | |lia]; unfold rot, tr, vminus; cbn; lra.
    + unfold ang. rewrite Z. unfold local_ang. rewrite C1, D1, H1, K1. destruct i as [|[|[|i]]]; [| | |lia]; unfold rot, tr, ang; cbn; lra.
  - intros H. apply (se3_meaning_world log3 HL _ _ _ _ _ M2 B2 O E2) in H. destruct H as [H _]. specialize (H 0 ltac:(lia)).
    rewrite A2 in H. specialize (H eq_refl). rewrite (rot_ext _ _ (fun _ => 0%R)) in H by (intros; apply Z). unfold world_lin in H. rewrite C2, D2, F2, H2, K2 in H.
    revert H. unfold rot. cbn. lra.
Qed.
(** velocity() is in the frame, velocity_ref() in world axes. *)
Theorem velocity_error_refuted log3 name b : reads9 log3 -> exists (s s' : se3t Rnum) (d : fdata Rnum),
  se3_made Rtrunc log3 name 6 s /\ x_local s = b /\ orthogonal (d_R d) /\ x_mask s = ones_n 6 /\ @se3_step Rnum Rtrunc log3 s (XCompute d) = Ret s' tt /\
  vget (h_ve (x_h s')) 0 <> (vget (x_vr s') 0 - vget (x_v s') 0)%R.
Proof.
  intros HL. set (z := v6 (fun _ => 0%R)). set (val := v12 (fun _ => 0%R)).
  destruct (se3_config log3 name 6 z z val (v6 (unit_k 0)) z b) as (s & M1 & A1 & B1 & C1 & D1 & F1 & G1 & H1 & K1); auto.
  set (d := @mkFd Rnum Rz (fun _ => 0%R) (fun i => if i =? 0 then 2%R else 0%R) (fun _ => 0%R) id6).
  destruct (se3_runs log3 name 6 s d M1 A1) as [s' E1]. exists s, s', d. split; [exact M1|]. split; [exact B1|]. assert (O : orthogonal (d_R d)) by exact Rz_orth. split; [exact O|]. split; [exact A1|]. split; [exact E1|].
  destruct (se3_errors log3 name 6 s d s' HL M1 O E1 0 0) as (X & _ & (_ & V1) & (_ & V2)); [rewrite A1, ons_ones; reflexivity|].
  destruct (X ltac:(lia)) as [_ ->]. destruct (se3_done _ _ _ _ _ _ _ M1 E1) as (_ & _ & _ & _ & W1 & W2 & _). rewrite W1, W2, B1, H1. destruct b; unfold rot, tr, unit_k; cbn; lra.
Qed.
Theorem velocity_error_aligned log3 name nv (s : se3t Rnum) (d : fdata Rnum) s' : reads9 log3 -> @se3_made Rnum Rtrunc log3 name nv s ->
  (forall a b, d_R d a b = if a =? b then 1%R else 0%R) -> @se3_step Rnum Rtrunc log3 s (XCompute d) = Ret s' tt ->
  forall j i, nth_error (ons 6 (x_mask s)) j = Some i -> vget (h_ve (x_h s')) j = (vget (x_vr s') i - vget (x_v s') i)%R.
Proof.
  intros HL M HR E j i Hj. assert (RR : forall x k, k < 3 -> rot (d_R d) x k = x k /\ rot (tr (d_R d)) x k = x k).
  { intros x k Hk. unfold rot, tr. rewrite !HR. destruct k as [|[|[|k]]]; [| | |lia]; cbn; split; ring. }
  assert (O : orthogonal (d_R d)). { intros x k Hk. rewrite (proj1 (RR _ k Hk)). rewrite !(proj2 (RR _ k Hk)). rewrite (proj1 (RR x k Hk)). auto. }
  destruct (se3_errors log3 name nv s d s' HL M O E j i Hj) as (X & Y & (_ & V1) & (_ & V2)).
  assert (Hi : i < 6) by (apply nth_error_In, ons_on in Hj; apply Hj). destruct (se3_done _ _ _ _ _ _ _ M E) as (_ & _ & _ & _ & W1 & W2 & _). rewrite W1, W2. cbn [vget].
  destruct (lt_dec i 3) as [L|L].
  - destruct (X L) as [_ ->]. rewrite (proj1 (RR (d_v d) i L)), (proj2 (RR (x_vd s) i L)). destruct (x_local s); reflexivity.
  - destruct (Y (i - 3) ltac:(lia)) as [_ ->]. rewrite (proj1 (RR (ang (d_v d)) (i - 3) ltac:(lia))), (proj2 (RR (ang (x_vd s)) (i - 3) ltac:(lia))). unfold ang. replace (3 + (i - 3)) with i by lia.
    destruct (x_local s); reflexivity.
Qed.
(** The acceleration reported for a solution is not the desired one whenever an active
    component has drift. *)
Theorem com_reported_wrong name nv (s : comt Rnum) (d : cdata Rnum) s' (dv : vec Rnum) i : @com_made Rnum Rtrunc name nv s -> com_step Rtrunc s (ZCompute d) = Ret s' tt -> vlen dv = nv ->
  sat (h_c (z_h s')) (vget dv) -> i < 3 -> on (z_mask s) i -> g_a d i <> 0%R ->
  exists a j, mt_acc false (z_h s') dv = Some a /\ nth_error (ons 3 (z_mask s)) j = Some i /\ vget a j <> vget (h_ad (z_h s')) j.
Proof.
  intros M E L Hs Hi Ho Ha. destruct (com_reported name nv s d s' dv M E L) as (a & EA & X). destruct (In_nth_error (ons 3 (z_mask s)) i) as [j Hj]; [apply ons_on; auto|].
  exists a, j. split; [exact EA|]. split; [exact Hj|]. rewrite (proj1 X Hs j i Hj). intros H. apply Ha. revert H. unfold Rnum; cbn. lra.
Qed.
Theorem am_reported_wrong name nv (s : amt Rnum) (v : vec Rnum) (d : adata Rnum) s' (dv : vec Rnum) i : @am_made Rnum name nv s -> am_step s (OCompute v d) = Ret s' tt -> vlen dv = nv ->
  sat (o_c s') (vget dv) -> i < 3 -> am_d d i <> 0%R -> exists a, am_dmomentum s' dv = Some a /\ vget a i <> o_des s' i.
Proof.
  intros M E L Hs Hi Ha. destruct (am_reported name nv s v d s' dv M E L) as (a & EA & X). exists a. split; [exact EA|]. rewrite (proj1 X Hs i Hi).
  intros H. apply Ha. revert H. unfold Rnum; cbn. lra.
Qed.
Theorem com_refuted name : exists (s s' : comt Rnum) (d : cdata Rnum) (dv a : vec Rnum), com_made Rtrunc name 3 s /\ com_step Rtrunc s (ZCompute d) = Ret s' tt /\ vlen dv = 3 /\
  sat (h_c (z_h s')) (vget dv) /\ mt_acc false (z_h s') dv = Some a /\ vget a 0 <> vget (h_ad (z_h s')) 0.
Proof.
  destruct (com_start name 3) as (s & M & A & B & C & D1 & D2 & D3). set (d := @mkCd Rnum (fun _ => 0%R) (fun _ => 0%R) (unit_k 0) id6).
  destruct (proj2 (com_defined Rtrunc name 3 s d M)) as [s' E].
  { rewrite A, D1, D2, D3. repeat split. destruct (mdim_01 _ (ones_n_01 3)) as [-> _]. cbn [vlen ones_n]. lia. }
  set (dv := @mkVec Rnum 3 (fun i => (- unit_k 0 i)%R)). assert (HS : sat (h_c (z_h s')) (vget dv)).
  { apply (com_meaning _ _ _ _ _ M E). intros i Hi _. rewrite B, C, D3. unfold accel. cbn [d g_J g_a dv vget]. rewrite (rsum_single 3 i) by (try exact Hi; intros c Hc Hne; unfold id6; replace (i =? c) with false by (symmetry; apply Nat.eqb_neq; lia); ring).
    unfold id6. rewrite Nat.eqb_refl. cbn. lra. }
  destruct (com_reported_wrong name 3 s d s' dv 0 M E eq_refl HS) as (a & j & EA & Hj & HN); [lia|rewrite A; reflexivity|cbn; lra|].
  rewrite A, ons_ones in Hj. assert (J0 : j = 0) by (destruct j as [|[|[|[|j]]]]; cbn in Hj; congruence). subst j. exists s, s', d, dv, a. auto 10.
Qed.
Theorem am_refuted name : exists (s s' : amt Rnum) (v : vec Rnum) (d : adata Rnum) (dv a : vec Rnum), am_made name 3 s /\ am_step s (OCompute v d) = Ret s' tt /\ vlen dv = 3 /\
  sat (o_c s') (vget dv) /\ am_dmomentum s' dv = Some a /\ vget a 0 <> o_des s' 0.
Proof.
  set (s := @am_new Rnum name 3). assert (M : am_made name 3 s) by constructor. set (d := @mkAd Rnum id6 (unit_k 0)). set (v := @vzero Rnum 3).
  assert (E : exists s', am_step s (OCompute v d) = Ret s' tt) by (eexists; reflexivity). destruct E as [s' E].
  set (dv := @mkVec Rnum 3 (fun i => (- unit_k 0 i)%R)). assert (HS : sat (o_c s') (vget dv)).
  { apply (am_meaning _ _ _ _ _ _ M E). intros i Hi. unfold accel. cbn [d am_J am_d dv vget]. rewrite (rsum_single 3 i) by (try exact Hi; intros c Hc Hne; unfold id6; replace (i =? c) with false by (symmetry; apply Nat.eqb_neq; lia); ring).
    unfold id6. rewrite Nat.eqb_refl. cbn. lra. }
  destruct (am_reported_wrong name 3 s v d s' dv 0 M E eq_refl HS) as (a & EA & HN); [lia|cbn; lra|]. exists s, s', v, d, dv, a. auto 10.
Qed.
(** * Masks that are not 0/1, which setMask of the SE3 task accepts *)
Theorem se3_mask_refuted log3 name nv : exists s, se3_made Rtrunc log3 name nv s /\
  (exists s1, @se3_step Rnum Rtrunc log3 s (XMask (vzero 0) (ones_n 3)) = Ret s1 tt /\ forall d, @se3_step Rnum Rtrunc log3 s1 (XCompute d) = Undef) /\
  (exists s1, @se3_step Rnum Rtrunc log3 s (XMask (vzero 0) (v6 (fun i => if i =? 0 then 2%R else 0%R))) = Ret s1 tt /\ mrows (c_mat (h_c (x_h s1))) = 2 /\
     forall d, exists s2, @se3_step Rnum Rtrunc log3 s1 (XCompute d) = Ret s2 tt /\ forall y, sat (h_c (x_h s2)) y).
Proof.
  destruct (se3_start log3 name nv) as (s & M & A & _). exists s. split; [exact M|]. destruct (se3_inv _ _ _ _ _ M) as [I1 I2 I3 I4]. split.
  - destruct (proj1 (mask_def Rtrunc (vzero 0) (x_nv s) (ones_n 3) (x_h s) (hi_kind _ _ _ _ _ I4))) as [h E]; [apply (mdim_01 (ones_n 3)), ones_n_01|].
    assert (E1 : exists s1, @se3_step Rnum Rtrunc log3 s (XMask (vzero 0) (ones_n 3)) = Ret s1 tt /\ x_mask s1 = ones_n 3).
    { cbn [se3_step]. rewrite E. eexists. split; reflexivity. }
    destruct E1 as (s1 & E1 & A1). exists s1. split; [exact E1|]. assert (M1 := se3_go _ _ _ _ _ _ M E1). intros d.
    destruct (@se3_step Rnum Rtrunc log3 s1 (XCompute d)) as [s2 []|s2|] eqn:E2; [| |reflexivity].
    + exfalso. assert (X := proj1 (se3_defined Rtrunc log3 name nv s1 d M1) (ex_intro _ s2 E2)). rewrite A1 in X. cbn in X. lia.
    + cbn [se3_step] in E2. destruct (se3_compute _ _ _); discriminate.
  - set (m := v6 _). assert (SM : rsum (vlen m) (vget m) = INR 2) by (cbn; lra).
    assert (MD : mdim Rtrunc m = 2) by (unfold mdim; rewrite SM, Rtrunc_INR; reflexivity).
    assert (ON : ons 6 m = []).
    { unfold ons. assert (G : forall l, filter (fun i => (vget m i =? n1)%num) l = []); [|apply G]. induction l as [|i l IH]; [reflexivity|]. cbn [filter].
      replace (neqb (vget m i) n1) with false; [exact IH|]. symmetry. apply Reqb_false. cbn [m v6 vget]. change (@n1 Rnum) with 1%R. destruct (i =? 0); lra. }
    destruct (proj1 (mask_def Rtrunc (vzero 0) (x_nv s) m (x_h s) (hi_kind _ _ _ _ _ I4))) as [h E]; [rewrite SM, Rtrunc_INR; lia|].
    assert (E1 : exists s1, @se3_step Rnum Rtrunc log3 s (XMask (vzero 0) m) = Ret s1 tt /\ x_mask s1 = m).
    { cbn [se3_step]. rewrite E. eexists. split; reflexivity. }
    destruct E1 as (s1 & E1 & A1). exists s1. split; [exact E1|]. assert (M1 := se3_go _ _ _ _ _ _ M E1). destruct (se3_inv _ _ _ _ _ M1) as [_ _ _ J4].
    split; [rewrite (hi_rows _ _ _ _ _ J4), A1; exact MD|]. intros d.
    destruct (proj2 (se3_defined Rtrunc log3 name nv s1 d M1)) as [s2 E2]; [rewrite A1, ON; cbn; lia|]. exists s2. split; [exact E2|]. intros y.
    destruct (se3_done _ _ _ _ _ _ _ M1 E2) as (_ & _ & _ & _ & _ & _ & _ & _ & D). apply (done_sat _ _ _ _ _ _ _ _ _ D y). intros i Hi Ho. exfalso.
    assert (X : In i (ons 6 m)) by (apply ons_on; rewrite <- A1; auto). rewrite ON in X. destruct X.
Qed.
