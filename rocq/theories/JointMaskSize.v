(** Masks of TaskJointPosVelAccBounds. *)
From Coq Require Import String List Arith Bool ZArith QArith Reals Lia Lra.
From Verif Require Import Scalar Outcome Linalg Constraint FormPhysSpec RSum Masks MaskReal JointBounds JointSpec JointReal JointLimits JointViab JointTask JointPva SolverSpec.
Import ListNotations.
Open Scope nat_scope.

Definition pinv0 (nv na : nat) (s : rpva) : Prop :=
  p_na s = na /\ p_nv s = nv /\ c_kind (p_c s) = CIneq /\ mcols (c_mat (p_c s)) = nv.
Lemma pva_mask_kind jk (s s' : rpva) m b nv na : pinv0 nv na s -> @pva_mask Rnum Rtrunc jk s m = Some (s', b) -> pinv0 nv na s'.
Proof.
  intros (I1 & I2 & I3 & I4). unfold pva_mask. destruct (set_mask _ _ _ _ _ _) as [d M ax|d ax|] eqn:E; [| |discriminate].
  - unfold cresize. rewrite I3. cbn [obind]. intros X. injection X as <- _. unfold pinv0. cbn [p_na p_nv p_c cset_mat c_kind c_mat].
    repeat (split; [assumption || reflexivity|]). unfold set_mask in E. destruct (_ <? 0)%Z; [discriminate|]. destruct (fold_left _ _ _); [|discriminate|discriminate].
    injection E as _ <- _. exact I2.
  - intros X. injection X as <- _. unfold pinv0. cbn. tauto.
Qed.
Lemma pinv0_step nv na s o s' : pinv0 nv na s -> after (rstep s o) = Some s' -> pinv0 nv na s'.
Proof.
  intros I. assert (I' := I). destruct I as (I1 & I2 & I3 & I4). destruct o as [dt|l u|u|u|a b c d|jk m|b|q v]; cbn [pva_step].
  - destruct (_ <? _)%num; intros X; injection X as <-; exact I'.
  - destruct (_ && _); intros X; injection X as <-; exact I'.
  - destruct (_ =? _); intros X; injection X as <-; exact I'.
  - destruct (_ =? _); intros X; injection X as <-; exact I'.
  - intros X; injection X as <-; exact I'.
  - destruct (_ =? _); [|intros X; injection X as <-; exact I'].
    destruct (pva_mask Rtrunc jk s m) as [[t b]|] eqn:E; [|discriminate]. assert (G := pva_mask_kind jk s t m b nv na I' E).
    destruct b; intros X; injection X as <-; exact G.
  - intros X; injection X as <-; exact I'.
  - unfold pva_compute. destruct (vtail q _); [|discriminate]. destruct (vtail v _); [|discriminate]. cbn [obind]. intros X; injection X as <-. exact I'.
Qed.
Lemma pmade_inv0 name nv na dt s : na <= nv -> pmade any_op name nv na dt s -> pinv0 nv na s.
Proof.
  intros Hn (jk & s0 & H0 & Hr). apply (reach_inv rstep any_op (pinv0 nv na) s0 s).
  - assert (Hd : (0 < dt)%R).
    { unfold pva_new in H0. destruct (@nltb Rnum (@n0 Rnum) dt) eqn:E; [apply Rltb_true in E; exact E|discriminate]. }
    destruct (pva_new_ok jk name nv na dt Hn Hd) as (t & E & (I1 & I2 & _ & _ & _ & _ & _ & _ & _ & _ & I11 & (_ & I12 & _) & _) & _). rewrite E in H0. injection H0 as <-.
    repeat (split; [assumption|]). assumption.
  - intros s1 o s2 I _ E. eapply pinv0_step; eassumption.
  - exact Hr.
Qed.
Lemma actives_all (m : vec Rnum) : length (actives m) = vlen m -> mask01 m -> ones m.
Proof.
  intros H H01 i Hi. assert (X : is_on m i = true).
  { destruct (is_on m i) eqn:E; [reflexivity|]. exfalso. unfold actives in H.
    replace (vlen m) with (i + S (vlen m - S i)) in H at 1 by lia. rewrite seq_app, filter_app, app_length in H. cbn [Nat.add seq filter] in H.
    rewrite E in H. assert (A := filter_len (is_on m) (seq 0 i)). assert (B := filter_len (is_on m) (seq (S i) (vlen m - S i))).
    rewrite !seq_length in *. lia. }
  unfold is_on in X. destruct (H01 i Hi) as [E|E]; [rewrite E in X; discriminate|]. apply Reqb_true in E. exact E.
Qed.
(** Every 0/1 mask of the right size is accepted; after the next computation the sizes
    of the constraint fit together exactly if no joint is masked. *)
Theorem mask_sizes name nv na dt (s : rpva) jk m q v : na <= nv -> pmade any_op name nv na dt s ->
  vlen m = na -> mask01 m -> na <= vlen q -> na <= vlen v ->
  exists s1 s2, rstep s (PMask jk m) = Ret s1 tt /\ rstep s1 (PCompute q v) = Ret s2 tt /\
    @selects Rnum (nv - na) (fun _ => 1%R) (actives m) (c_mat (p_c s2)) /\ (cwf nv (p_c s2) <-> ones m).
Proof.
  intros Hn Hm Hl H01 Hq Hv. destruct (pmade_inv0 _ _ _ _ _ Hn Hm) as (I1 & I2 & I3 & I4).
  cbn [pva_step]. rewrite I1, Hl, Nat.eqb_refl. unfold pva_mask. rewrite I1, I2.
  destruct (set_mask_ok Rtrunc jk nv (nv - na) (fun _ => n1) m H01 (mask_counted m H01)) as (M & ax & -> & S & C & _); [lia|].
  unfold cresize. rewrite I3. cbn [obind cset_mat c_name c_kind c_vec c_lb c_ub].
  match goal with |- exists s1 s2, Ret ?t tt = _ /\ _ => set (s1 := t) end.
  destruct (pva_compute_ok s1 q v Hq Hv) as (s2 & E & _ & _ & _ & _ & C4 & C5 & C6 & C7 & _).
  exists s1, s2. split; [reflexivity|]. split; [exact E|]. cbn [s1 p_c cset_mat c_kind c_mat p_na] in C4, C5, C6, C7.
  rewrite C5. split; [exact S|]. unfold cwf. rewrite C4, C5, C6, C7. destruct S as [S1 _]. rewrite S1, C. split.
  - intros (_ & X & _). apply actives_all; [congruence|exact H01].
  - intros O. rewrite (ones_actives m O), seq_length, Hl. auto.
Qed.
Corollary mask_zero name nv na dt (s : rpva) jk (m q v : vec Rnum) i : na <= nv -> pmade any_op name nv na dt s ->
  vlen m = na -> mask01 m -> na <= vlen q -> na <= vlen v -> i < na -> vget m i = 0%R ->
  exists s1 s2, rstep s (PMask jk m) = Ret s1 tt /\ rstep s1 (PCompute q v) = Ret s2 tt /\ ~ cwf nv (p_c s2).
Proof.
  intros Hn Hm Hl H01 Hq Hv Hi H0. destruct (mask_sizes name nv na dt s jk m q v Hn Hm Hl H01 Hq Hv) as (s1 & s2 & E1 & E2 & _ & X).
  exists s1, s2. split; [exact E1|]. split; [exact E2|]. intros W. apply X in W. specialize (W i ltac:(lia)). rewrite H0 in W. assert (0 = 1)%R by exact W. lra.
Qed.
