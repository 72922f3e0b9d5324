(** The masked joint tasks over every sequence of calls with 0/1 masks. *)
From Coq Require Import String List Arith Bool ZArith QArith Reals Lia Lra.
From Verif Require Import Scalar Outcome Linalg Constraint FormPhysSpec RSum Masks MaskReal JointBounds JointTask JointTasks.
Import ListNotations.
Open Scope nat_scope.

Section P.
Context {K : num} (toZ : K -> Z) (dif : vec K -> vec K -> nat -> K).
(** A mask the tasks accept; over the reals [counted] follows from [mask01]. *)
Definition good_mask (m : vec K) : Prop := mask01 m /\ counted toZ m.
(** The rows of [M] and the list of axes are those of the mask [m]. *)
Definition rows_ok (off : nat) (val : nat -> K) (cols na : nat) (m : vec K) (axn : nat) (ax : nat -> nat) (M : mat K) : Prop :=
  vlen m = na /\ good_mask m /\ axn = length (actives m) /\ selects off val (actives m) M /\ mcols M = cols /\
  forall j i, nth_error (actives m) j = Some i -> ax j = i.
Lemma actives_lt (m : vec K) i : In i (actives m) -> i < vlen m.
Proof. unfold actives. rewrite filter_In, in_seq. lia. Qed.
Lemma fill_ok (v : vec K) (m : vec K) ax lim (f : nat -> K) : vlen v = length (actives m) -> vlen m <= lim ->
  (forall j i, nth_error (actives m) j = Some i -> ax j = i) ->
  exists b, fill v (length (actives m)) ax lim f = Some b /\ vlen b = length (actives m) /\
    forall j i, nth_error (actives m) j = Some i -> vget b j = f i.
Proof.
  intros Hv Hl Hax. unfold fill. rewrite Hv, Nat.leb_refl. cbn [andb].
  replace (forallb (fun i => ax i <? lim) (seq 0 (length (actives m)))) with true.
  - eexists. split; [reflexivity|]. cbn [over vlen vget]. split; [exact Hv|]. intros j i Hj.
    assert (j < length (actives m)) by (apply nth_error_Some; congruence).
    replace (j <? 0 + length (actives m)) with true by (symmetry; apply Nat.ltb_lt; lia). cbn [Nat.leb andb].
    rewrite Nat.sub_0_r, (Hax j i Hj). reflexivity.
  - symmetry. apply forallb_forall. intros j Hj. apply in_seq in Hj. destruct (nth_error (actives m) j) as [i|] eqn:E.
    + rewrite (Hax j i E). apply Nat.ltb_lt. apply nth_error_In in E. apply actives_lt in E. lia.
    + apply nth_error_None in E. lia.
Qed.
Lemma set_rows jk off val cols na (m : vec K) : vlen m = na -> good_mask m -> off + na <= cols ->
  exists M ax, set_mask toZ jk cols off val m = MOk (length (actives m)) M ax /\
    rows_ok off val cols na m (length (actives m)) ax M.
Proof.
  intros Hl [H1 H2] Hc. destruct (set_mask_ok toZ jk cols off val m H1 H2) as (M & ax & E & A & B & C); [lia|].
  exists M, ax. split; [exact E|]. repeat split; auto; apply A.
Qed.

(** ** Posture *)
Record tinv (name : string) (neu : vec K) (nqa nv na : nat) (s : post K) : Prop := mkTinv {
  ti_nq : t_nq s = vlen neu; ti_nqa : t_nqa s = nqa; ti_nv : t_nv s = nv; ti_na : t_na s = na;
  ti_kp : vlen (t_kp s) = na; ti_kd : vlen (t_kd s) = na;
  ti_val : vlen (t_val s) = nqa; ti_der : vlen (t_der s) = na; ti_sec : vlen (t_sec s) = na;
  ti_aug : vlen (t_aug s) = vlen neu; ti_head : forall i, i < vlen neu - nqa -> vget (t_aug s) i = vget neu i;
  ti_p : t_p s = vzero 0;
  ti_rows : rows_ok (nv - na) (fun _ => n1) nv na (t_mask s) (t_axn s) (t_ax s) (c_mat (t_c s));
  ti_name : c_name (t_c s) = name; ti_kind : c_kind (t_c s) = CEq; ti_vec : vlen (c_vec (t_c s)) = length (actives (t_mask s)) }.
Definition tgood (s : post K) (o : postop K) : Prop :=
  match o with TMask _ m => vlen m = t_na s -> good_mask m | _ => True end.
Definition tmade (name : string) (neu : vec K) (nqa nv na : nat) (s : post K) : Prop :=
  exists jk s0, post_new toZ jk name neu nqa nv na = Some s0 /\ reach (post_step toZ dif) tgood s0 s.
Lemma post_mask_ok jk name nv na (s : post K) m : na <= nv -> t_nv s = nv -> t_na s = na -> vlen m = na -> good_mask m ->
  c_kind (t_c s) = CEq -> c_name (t_c s) = name ->
  exists ax c, post_mask toZ jk s m = Some (mkPost (t_nq s) (t_nqa s) nv na (t_kp s) (t_kd s) (t_val s) (t_der s) (t_sec s)
      (t_aug s) m (length (actives m)) ax (t_perr s) (t_verr s) (t_p s) (t_v s) (t_ades s) c, true) /\
    rows_ok (nv - na) (fun _ => n1) nv na m (length (actives m)) ax (c_mat c) /\
    c_name c = name /\ c_kind c = CEq /\ c_vec c = vzero (length (actives m)).
Proof.
  intros Hn E1 E2 Hm Hg HK HN. unfold post_mask. rewrite E1, E2.
  destruct (set_rows jk (nv - na) (fun _ => n1) nv na m Hm Hg ltac:(lia)) as (M & ax & -> & R).
  unfold cresize. rewrite HK. cbn [obind]. eexists ax, _. split; [reflexivity|]. cbn [cset_mat c_mat c_name c_kind c_vec]. auto 10.
Qed.
Hypothesis good_ones : forall n, good_mask (mkVec n (fun _ => n1)).
Lemma post_new_ok jk name neu nqa nv na : na <= nv -> nqa <= vlen neu ->
  exists s, post_new toZ jk name neu nqa nv na = Some s /\ tinv name neu nqa nv na s /\ t_mask s = mkVec na (fun _ => n1).
Proof.
  intros Hn Hq. unfold post_new.
  destruct (post_mask_ok jk name nv na
    (mkPost (vlen neu) nqa nv na (vzero na) (vzero na) (vzero nqa) (vzero na) (vzero na) neu
       (vzero 0) 0 jk (vzero 0) (vzero 0) (vzero 0) (vzero 0) (vzero 0) (new_eq name na nv)) (mkVec na (fun _ => n1)))
    as (ax & c & E & R & A & B & C); auto.
  rewrite E. cbn [obind]. eexists. split; [reflexivity|]. cbn [t_nq t_nqa t_nv t_na t_kp t_kd t_val t_der t_sec t_aug t_p t_mask t_axn t_ax t_c].
  split; [|reflexivity]. split; cbn [t_nq t_nqa t_nv t_na t_kp t_kd t_val t_der t_sec t_aug t_p t_mask t_axn t_ax t_c vlen vzero]; auto.
  rewrite C. reflexivity.
Qed.
Definition same_tparams (s s' : post K) : Prop :=
  t_kp s' = t_kp s /\ t_kd s' = t_kd s /\ t_val s' = t_val s /\ t_der s' = t_der s /\ t_sec s' = t_sec s /\ t_mask s' = t_mask s.
(** The configuration the error refers to. *)
Definition ref_config (neu val : vec K) : vec K :=
  mkVec (vlen neu) (fun i => if i <? vlen neu - vlen val then vget neu i else vget val (i - (vlen neu - vlen val))).
Definition post_des (s : post K) (aug q v : vec K) (nv na i : nat) : K :=
  (- (vget (t_kp s) i * dif aug q (nv - na + i)) - vget (t_kd s) i * (last_of na v i - vget (t_der s) i) + vget (t_sec s) i)%num.
Lemma post_compute_ok name neu nqa nv na (s : post K) q v : na <= nv -> nqa <= vlen neu -> tinv name neu nqa nv na s ->
  vlen q = vlen neu -> na <= vlen v ->
  exists s', post_compute dif s q v = Ret s' tt /\ same_tparams s s' /\ tinv name neu nqa nv na s' /\
    veq (t_aug s') (ref_config neu (t_val s)) /\ c_mat (t_c s') = c_mat (t_c s) /\
    vlen (t_ades s') = na /\ (forall i, i < na -> vget (t_ades s') i = post_des s (t_aug s') q v nv na i) /\
    (forall i, i < na -> vget (t_perr s') i = dif (t_aug s') q (nv - na + i)) /\
    (forall i, i < na -> vget (t_verr s') i = (last_of na v i - vget (t_der s) i)%num) /\
    (vlen (t_perr s') = na /\ vlen (t_verr s') = na /\ vlen (t_v s') = na /\ forall i, i < na -> vget (t_v s') i = last_of na v i) /\
    forall j i, nth_error (actives (t_mask s)) j = Some i -> vget (c_vec (t_c s')) j = vget (t_ades s') i.
Proof.
  intros Hn Hq [I1 I2 I3 I4 I5 I6 I7 I8 I9 I10 I11 I12 I13 I14 I15 I16] Lq Lv. unfold post_compute.
  rewrite I1, I2, I3, I4, I10. replace (nqa <=? vlen neu) with true by (symmetry; apply Nat.leb_le; exact Hq).
  unfold vset_seg. rewrite I10, I7, Nat.eqb_refl. replace (vlen neu - nqa + nqa <=? vlen neu) with true by (symmetry; apply Nat.leb_le; lia).
  cbn [andb]. rewrite Lq, Nat.eqb_refl.
  set (aug := mkVec (vlen neu) _).
  destruct (vtail_def (mkVec nv (dif aug q)) na) as (pe & -> & P1 & P2); [cbn; lia|]. cbn [obind].
  destruct (vtail_def v na Lv) as (va & -> & V1 & V2). cbn [obind].
  destruct (vsub_def va (t_der s)) as (ve & -> & W1 & W2); [lia|]. cbn [obind].
  rewrite I5, I6, I9, P1, W1, V1, !Nat.eqb_refl. cbn [andb guard obind vlen vget].
  destruct I13 as (R1 & R2 & R3 & R4 & R5 & R6). rewrite R3.
  match goal with |- context[fill _ _ _ _ ?g] => destruct (fill_ok (c_vec (t_c s)) (t_mask s) (t_ax s) na g I16 ltac:(lia) R6) as (b & EB & B1 & B2) end.
  rewrite EB. cbn [obind]. unfold cset_vec. rewrite I15. cbn [obind]. eexists. split; [reflexivity|].
  cbn [t_nq t_nqa t_nv t_na t_kp t_kd t_val t_der t_sec t_aug t_p t_mask t_axn t_ax t_c t_perr t_verr t_v t_ades c_mat c_vec vget vlen].
  split; [repeat split|]. split.
  { split; cbn [t_nq t_nqa t_nv t_na t_kp t_kd t_val t_der t_sec t_aug t_p t_mask t_axn t_ax t_c c_mat c_vec c_name c_kind]; auto.
    - intros i Hi. unfold aug. cbn [vget]. replace (vlen neu - nqa <=? i) with false by (symmetry; apply Nat.leb_gt; lia). cbn [andb]. auto.
    - repeat split; auto; apply R2 || apply R4. }
  split.
  { split; [reflexivity|]. unfold aug, ref_config. cbn [vlen vget]. rewrite I7. intros i Hi. destruct (i <? vlen neu - nqa) eqn:E.
    - apply Nat.ltb_lt in E. replace (vlen neu - nqa <=? i) with false by (symmetry; apply Nat.leb_gt; lia). cbn [andb]. auto.
    - apply Nat.ltb_ge in E. replace (vlen neu - nqa <=? i) with true by (symmetry; apply Nat.leb_le; lia).
      replace (i <? vlen neu - nqa + nqa) with true by (symmetry; apply Nat.ltb_lt; lia). reflexivity. }
  split; [reflexivity|]. split; [reflexivity|].
  assert (D : forall i, vget pe i = dif aug q (nv - na + i)) by (intros i; rewrite P2; reflexivity).
  assert (W : forall i, vget ve i = (last_of na v i - vget (t_der s) i)%num) by (intros i; rewrite W2, V2; reflexivity).
  split; [intros i Hi; unfold post_des; rewrite D, W; reflexivity|]. split; [intros i _; apply D|]. split; [intros i _; apply W|]. split; [repeat split; auto; lia|].
  intros j i Hj. apply B2. exact Hj.
Qed.
Lemma tmade_inv name neu nqa nv na s : na <= nv -> nqa <= vlen neu -> tmade name neu nqa nv na s -> tinv name neu nqa nv na s.
Proof.
  intros Hn Hq (jk & s0 & H0 & Hr). destruct (post_new_ok jk name neu nqa nv na Hn Hq) as (s1 & E & I0 & _).
  rewrite E in H0. injection H0 as <-. revert Hr. apply reach_inv; [exact I0|]. clear - Hn Hq.
  intros s o s' I Hg X. destruct o as [k|k|va de se|jk m|q v]; cbn [post_step] in X.
  - destruct (vlen k =? t_na s) eqn:E; injection X as <-; [|exact I]. apply Nat.eqb_eq in E. destruct I. split; cbn [t_nq t_nqa t_nv t_na t_kp t_kd t_val t_der t_sec t_aug t_p t_mask t_axn t_ax t_c]; auto; congruence.
  - destruct (vlen k =? t_na s) eqn:E; injection X as <-; [|exact I]. apply Nat.eqb_eq in E. destruct I. split; cbn [t_nq t_nqa t_nv t_na t_kp t_kd t_val t_der t_sec t_aug t_p t_mask t_axn t_ax t_c]; auto; congruence.
  - destruct ((vlen va =? t_nqa s) && (vlen de =? t_na s) && (vlen se =? t_na s)) eqn:E; injection X as <-; [|exact I].
    apply andb_prop in E as [E E3]. apply andb_prop in E as [E1 E2]. apply Nat.eqb_eq in E1, E2, E3. destruct I.
    split; cbn [t_nq t_nqa t_nv t_na t_kp t_kd t_val t_der t_sec t_aug t_p t_mask t_axn t_ax t_c]; auto; congruence.
  - destruct (vlen m =? t_na s) eqn:E; [|injection X as <-; exact I]. apply Nat.eqb_eq in E. specialize (Hg E).
    destruct I as [I1 I2 I3 I4 I5 I6 I7 I8 I9 I10 I11 I12 I13 I14 I15 I16].
    destruct (post_mask_ok jk name nv na s m) as (ax & c & EM & R & A & B & C); auto; [congruence|].
    rewrite EM in X. injection X as <-. split; cbn [t_nq t_nqa t_nv t_na t_kp t_kd t_val t_der t_sec t_aug t_p t_mask t_axn t_ax t_c]; auto.
    rewrite C. reflexivity.
  - unfold post_compute in X. destruct (Nat.eq_dec (vlen q) (vlen neu)) as [Lq|Lq].
    + destruct (Nat.le_gt_cases na (vlen v)) as [Lv|Lv].
      * destruct (post_compute_ok name neu nqa nv na s q v Hn Hq I Lq Lv) as (s1 & E & _ & I' & _).
        unfold post_compute in E. rewrite E in X. injection X as <-. exact I'.
      * exfalso. destruct I as [I1 I2 I3 I4 _ _ _ _ _ _ _ _ _ _ _ _]. destruct (if t_nqa s <=? _ then _ else _); [|discriminate].
        rewrite Lq, I1, Nat.eqb_refl in X. rewrite I4 in X. destruct (vtail (mkVec _ _) na); [|discriminate]. cbn [obind] in X.
        unfold vtail in X at 1. replace (na <=? vlen v) with false in X by (symmetry; apply Nat.leb_gt; exact Lv). discriminate.
    + destruct I as [I1 I2 I3 I4 I5 I6 I7 I8 I9 I10 I11 I12 I13 I14 I15 I16].
      rewrite I2, I10 in X. replace (nqa <=? vlen neu) with true in X by (symmetry; apply Nat.leb_le; exact Hq).
      unfold vset_seg in X. rewrite I10, I7, Nat.eqb_refl in X. replace (vlen neu - nqa + nqa <=? vlen neu) with true in X by (symmetry; apply Nat.leb_le; lia).
      cbn [andb] in X. rewrite I1 in X. replace (vlen q =? vlen neu) with false in X by (symmetry; apply Nat.eqb_neq; exact Lq). injection X as <-.
      split; cbn [t_nq t_nqa t_nv t_na t_kp t_kd t_val t_der t_sec t_aug t_p t_mask t_axn t_ax t_c vlen vget]; auto.
      intros i Hi. replace (vlen neu - nqa <=? i) with false by (symmetry; apply Nat.leb_gt; lia). cbn [andb]. auto.
Qed.
Theorem post_defined name neu nqa nv na (s : post K) q v : na <= nv -> nqa <= vlen neu -> tmade name neu nqa nv na s ->
  vlen q = vlen neu -> na <= vlen v ->
  exists s', post_step toZ dif s (TCompute q v) = Ret s' tt /\ same_tparams s s' /\ tmade name neu nqa nv na s' /\ c_name (t_c s') = name.
Proof.
  intros Hn Hq Hm Lq Lv. assert (I := tmade_inv _ _ _ _ _ _ Hn Hq Hm).
  destruct (post_compute_ok name neu nqa nv na s q v Hn Hq I Lq Lv) as (s' & E & A & I' & _).
  exists s'. split; [exact E|]. split; [exact A|]. split; [|apply (ti_name _ _ _ _ _ _ I')].
  destruct Hm as (jk & s0 & H0 & Hr). exists jk, s0. split; [exact H0|]. eapply reach_step with (o := TCompute q v); [exact Hr|exact Logic.I|].
  cbn [post_step]. rewrite E. reflexivity.
Qed.
(** Setters of gains and reference: accepted iff the sizes fit, then they set their
    parameter and nothing else of what the constraint depends on; a rejected call
    changes nothing. *)
Definition set_to (s s' : post K) kp kd va de se : Prop :=
  t_kp s' = kp /\ t_kd s' = kd /\ t_val s' = va /\ t_der s' = de /\ t_sec s' = se /\ t_mask s' = t_mask s /\ t_c s' = t_c s.
Theorem post_setters name neu nqa nv na (s : post K) : na <= nv -> nqa <= vlen neu -> tmade name neu nqa nv na s ->
  (forall k, (vlen k = na -> exists s', post_step toZ dif s (TKp k) = Ret s' tt /\ set_to s s' k (t_kd s) (t_val s) (t_der s) (t_sec s)) /\
             (vlen k <> na -> post_step toZ dif s (TKp k) = Exc s)) /\
  (forall k, (vlen k = na -> exists s', post_step toZ dif s (TKd k) = Ret s' tt /\ set_to s s' (t_kp s) k (t_val s) (t_der s) (t_sec s)) /\
             (vlen k <> na -> post_step toZ dif s (TKd k) = Exc s)) /\
  (forall va de se, (vlen va = nqa /\ vlen de = na /\ vlen se = na ->
              exists s', post_step toZ dif s (TRef va de se) = Ret s' tt /\ set_to s s' (t_kp s) (t_kd s) va de se) /\
             (~ (vlen va = nqa /\ vlen de = na /\ vlen se = na) -> post_step toZ dif s (TRef va de se) = Exc s)).
Proof.
  intros Hn Hq Hm. destruct (tmade_inv _ _ _ _ _ _ Hn Hq Hm) as [_ I2 _ I4 _ _ _ _ _ _ _ _ _ _ _ _]. cbn [post_step]. rewrite I2, I4. split; [|split].
  - intros k. split; intros H; [rewrite H, Nat.eqb_refl; eexists; split; [reflexivity|repeat split]|].
    apply Nat.eqb_neq in H. rewrite H. reflexivity.
  - intros k. split; intros H; [rewrite H, Nat.eqb_refl; eexists; split; [reflexivity|repeat split]|].
    apply Nat.eqb_neq in H. rewrite H. reflexivity.
  - intros va de se. split; intros H.
    + destruct H as (-> & -> & ->). rewrite !Nat.eqb_refl. eexists; split; [reflexivity|repeat split].
    + destruct (Nat.eqb_spec (vlen va) nqa); [|reflexivity]. destruct (Nat.eqb_spec (vlen de) na); [|reflexivity].
      destruct (Nat.eqb_spec (vlen se) na); [|reflexivity]. tauto.
Qed.

(** Any scalar: one row per active joint, in order, reading exactly this joint, with
    the desired acceleration of this joint. *)
Theorem post_rows name neu nqa nv na (s : post K) q v : na <= nv -> nqa <= vlen neu -> tmade name neu nqa nv na s ->
  vlen q = vlen neu -> na <= vlen v ->
  exists s', post_step toZ dif s (TCompute q v) = Ret s' tt /\ c_kind (t_c s') = CEq /\
    selects (nv - na) (fun _ => n1) (actives (t_mask s)) (c_mat (t_c s')) /\ mcols (c_mat (t_c s')) = nv /\
    vlen (c_vec (t_c s')) = length (actives (t_mask s)) /\ vlen (t_ades s') = na /\
    forall j i, nth_error (actives (t_mask s)) j = Some i -> vget (c_vec (t_c s')) j = vget (t_ades s') i.
Proof.
  intros Hn Hq Hm Lq Lv. assert (I := tmade_inv _ _ _ _ _ _ Hn Hq Hm).
  destruct (post_compute_ok name neu nqa nv na s q v Hn Hq I Lq Lv) as (s' & E & A & I' & _ & _ & L & _ & _ & _ & _ & F).
  exists s'. split; [exact E|]. destruct I' as [_ _ _ _ _ _ _ _ _ _ _ _ R _ HK HV]. destruct A as (_ & _ & _ & _ & _ & EM). rewrite EM in R, HV.
  destruct R as (_ & _ & _ & R & R' & _). split; [exact HK|]. split; [exact R|]. split; [exact R'|]. split; [exact HV|]. split; [exact L|exact F].
Qed.

(** ** Actuation bounds *)
Record uinv (name : string) (na : nat) (s : actb K) : Prop := mkUinv {
  ui_na : u_na s = na;
  ui_rows : rows_ok 0 (fun _ => n1) na na (u_mask s) (u_axn s) (u_ax s) (c_mat (u_c s));
  ui_name : c_name (u_c s) = name; ui_kind : c_kind (u_c s) = CIneq;
  ui_lb : vlen (c_lb (u_c s)) = length (actives (u_mask s)); ui_ub : vlen (c_ub (u_c s)) = length (actives (u_mask s)) }.
Definition ugood (s : actb K) (o : actbop K) : Prop :=
  match o with UMask _ m => vlen m = u_na s -> good_mask m | _ => True end.
Definition umade (name : string) (na : nat) (s : actb K) : Prop :=
  exists jk s0, actb_new toZ jk name na = Some s0 /\ reach (actb_step toZ) ugood s0 s.
Lemma actb_mask_ok jk name na (s : actb K) m : u_na s = na -> vlen m = na -> good_mask m -> c_kind (u_c s) = CIneq -> c_name (u_c s) = name ->
  exists s', actb_mask toZ jk s m = Some (s', true) /\ uinv name na s' /\ u_mask s' = m /\
    c_lb (u_c s') = vzero (length (actives m)) /\ c_ub (u_c s') = vzero (length (actives m)).
Proof.
  intros E1 Hm Hg HK HN. unfold actb_mask. rewrite E1.
  destruct (set_rows jk 0 (fun _ => n1) na na m Hm Hg ltac:(lia)) as (M & ax & -> & R).
  unfold cresize. rewrite HK. cbn [obind]. eexists. split; [reflexivity|]. split; [split|]; cbn [cset_mat c_mat c_name c_kind c_lb c_ub u_na u_mask u_axn u_ax u_c]; auto.
Qed.
Lemma actb_new_ok jk name na : exists s, actb_new toZ jk name na = Some s /\ uinv name na s /\ u_mask s = mkVec na (fun _ => n1).
Proof.
  unfold actb_new. destruct (actb_mask_ok jk name na (mkActb na (vzero 0) 0 jk (new_ineq name na na)) (mkVec na (fun _ => n1))) as (s & E & I & M & _); auto.
  rewrite E. cbn [obind]. eauto.
Qed.
Lemma actb_set name na (s : actb K) l u : uinv name na s ->
  vlen l = length (actives (u_mask s)) -> vlen u = length (actives (u_mask s)) ->
  exists s', actb_step toZ s (UBounds l u) = Ret s' tt /\ uinv name na s' /\ u_mask s' = u_mask s /\
    c_lb (u_c s') = l /\ c_ub (u_c s') = u.
Proof.
  intros [I1 I2 I3 I4 I5 I6] Hl Hu. cbn [actb_step]. unfold actb_dim. destruct I2 as (R1 & (R2 & R2') & R3).
  unfold counted in R2'. rewrite R2', Hl, Hu, Z.eqb_refl. cbn [andb]. unfold cset_lb, cset_ub. rewrite I4. cbn [obind c_kind].
  eexists. split; [reflexivity|]. split; [split|]; cbn [u_na u_mask u_axn u_ax u_c c_mat c_name c_kind c_lb c_ub]; auto.
  split; [exact R1|]. split; [split; assumption|exact R3].
Qed.
Lemma actb_reject name na (s : actb K) l u : uinv name na s ->
  ~ (vlen l = length (actives (u_mask s)) /\ vlen u = length (actives (u_mask s))) -> actb_step toZ s (UBounds l u) = Exc s.
Proof.
  intros [I1 I2 I3 I4 I5 I6] H. cbn [actb_step]. unfold actb_dim. destruct I2 as (R1 & (R2 & R2') & R3). unfold counted in R2'. rewrite R2'.
  destruct (Z.eqb_spec (Z.of_nat (vlen l)) (Z.of_nat (length (actives (u_mask s))))) as [A|A]; [|reflexivity].
  destruct (Z.eqb_spec (Z.of_nat (vlen u)) (Z.of_nat (length (actives (u_mask s))))) as [B|B]; [|reflexivity]. destruct H. lia.
Qed.
Lemma umade_inv name na s : umade name na s -> uinv name na s.
Proof.
  intros (jk & s0 & H0 & Hr). destruct (actb_new_ok jk name na) as (s1 & E & I0 & _). rewrite E in H0. injection H0 as <-.
  revert Hr. apply reach_inv; [exact I0|]. clear. intros s o s' I Hg X. destruct o as [jk m|l u|].
  - cbn [actb_step] in X. destruct (vlen m =? u_na s) eqn:E; [|injection X as <-; exact I]. apply Nat.eqb_eq in E. specialize (Hg E).
    destruct (actb_mask_ok jk name na s m) as (s1 & E1 & I1 & _); auto; try apply I; [destruct I; congruence|].
    rewrite E1 in X. injection X as <-. exact I1.
  - destruct (Nat.eq_dec (vlen l) (length (actives (u_mask s)))) as [A|A]; [destruct (Nat.eq_dec (vlen u) (length (actives (u_mask s)))) as [B|B]|].
    + destruct (actb_set name na s l u I A B) as (s1 & E & I' & _). rewrite E in X. injection X as <-. exact I'.
    + rewrite (actb_reject name na s l u I) in X by tauto. injection X as <-. exact I.
    + rewrite (actb_reject name na s l u I) in X by tauto. injection X as <-. exact I.
  - injection X as <-. exact I.
Qed.

(** ** Actuation equality *)
Record einv (name : string) (na : nat) (s : acte K) : Prop := mkEinv {
  ei_na : e_na s = na; ei_ref : vlen (e_ref s) = na; ei_w : vlen (e_w s) = na;
  ei_rows : rows_ok 0 (vget (e_w s)) na na (e_mask s) (e_axn s) (e_ax s) (c_mat (e_c s));
  ei_name : c_name (e_c s) = name; ei_kind : c_kind (e_c s) = CEq;
  ei_vec : vlen (c_vec (e_c s)) = length (actives (e_mask s));
  ei_val : forall j i, nth_error (actives (e_mask s)) j = Some i -> vget (c_vec (e_c s)) j = (vget (e_ref s) i * vget (e_w s) i)%num }.
Definition egood (s : acte K) (o : acteop K) : Prop :=
  match o with EMask _ m => vlen m = e_na s -> good_mask m | _ => True end.
Definition emade (name : string) (na : nat) (s : acte K) : Prop :=
  exists jk s0, acte_new toZ jk name na = Some s0 /\ reach (acte_step toZ) egood s0 s.
Lemma acte_fill_ok name na (s : acte K) c : vlen (e_ref s) = na -> vlen (e_w s) = na ->
  rows_ok 0 (vget (e_w s)) na na (e_mask s) (e_axn s) (e_ax s) (c_mat c) -> c_kind c = CEq -> c_name c = name ->
  vlen (c_vec c) = length (actives (e_mask s)) ->
  exists c', acte_fill s c = Some c' /\ einv name na (mkActe na (e_mask s) (e_ref s) (e_w s) (e_axn s) (e_ax s) c').
Proof.
  intros H1 H2 R HK HN HV. unfold acte_fill. destruct R as (R1 & R2 & R3 & R4 & R5 & R6). rewrite R3.
  match goal with |- context[fill _ _ _ ?lim ?g] => destruct (fill_ok (c_vec c) (e_mask s) (e_ax s) lim g HV ltac:(lia) R6) as (b & EB & B1 & B2) end.
  rewrite EB. cbn [obind]. unfold cset_vec. rewrite HK. eexists. split; [reflexivity|].
  split; cbn [e_na e_mask e_ref e_w e_axn e_ax e_c c_mat c_name c_kind c_vec]; auto. repeat split; auto; apply R2 || apply R4.
Qed.
Lemma acte_mask_ok jk name na (s : acte K) m : e_na s = na -> vlen (e_ref s) = na -> vlen (e_w s) = na -> vlen m = na -> good_mask m ->
  c_kind (e_c s) = CEq -> c_name (e_c s) = name ->
  exists s', acte_mask toZ jk s m = Some (s', true) /\ einv name na s' /\ e_mask s' = m /\ e_ref s' = e_ref s /\ e_w s' = e_w s.
Proof.
  intros E1 H1 H2 Hm Hg HK HN. unfold acte_mask. rewrite E1, H2, Hm, Nat.leb_refl. cbn [guard obind].
  destruct (set_rows jk 0 (vget (e_w s)) na na m Hm Hg ltac:(lia)) as (M & ax & -> & R).
  unfold cresize. rewrite HK. cbn [obind].
  match goal with |- context[acte_fill ?s1 ?c1] => destruct (acte_fill_ok name na s1 c1) as (c' & EC & IC); auto end.
  rewrite EC. cbn [obind]. eexists. split; [reflexivity|]. split; [exact IC|]. auto.
Qed.
Lemma acte_new_ok jk name na : exists s, acte_new toZ jk name na = Some s /\ einv name na s /\ e_mask s = mkVec na (fun _ => n1) /\
  e_ref s = vzero na /\ e_w s = mkVec na (fun _ => n1).
Proof.
  unfold acte_new. match goal with |- context[acte_mask _ _ ?s1 ?m] => destruct (acte_mask_ok jk name na s1 m) as (s & E & I & A); auto end.
  rewrite E. cbn [obind]. exists s. split; [reflexivity|]. split; [exact I|exact A].
Qed.
Lemma acte_ref_ok name na (s : acte K) r : einv name na s -> vlen r = na ->
  exists s', acte_step toZ s (ERef r) = Ret s' tt /\ einv name na s' /\ e_mask s' = e_mask s /\ e_ref s' = r /\ e_w s' = e_w s.
Proof.
  intros [I1 I2 I3 I4 I5 I6 I7 I8] Hr. cbn [acte_step]. rewrite I1, Hr, Nat.eqb_refl.
  match goal with |- context[acte_fill ?s1 ?c1] => destruct (acte_fill_ok name na s1 c1) as (c' & EC & IC); auto end.
  rewrite EC. eexists. split; [reflexivity|]. split; [exact IC|]. auto.
Qed.
Lemma acte_weight_ok name na (s : acte K) w : einv name na s -> vlen w = na ->
  exists s', acte_step toZ s (EWeight w) = Ret s' tt /\ einv name na s' /\ e_mask s' = e_mask s /\ e_ref s' = e_ref s /\ e_w s' = w.
Proof.
  intros [I1 I2 I3 I4 I5 I6 I7 I8] Hw. cbn [acte_step]. rewrite I1, Hw, Nat.eqb_refl.
  destruct I4 as (R1 & R2 & R3 & (R4 & R4') & R5 & R6). rewrite R3, R4, Nat.leb_refl. cbn [andb].
  replace (forallb (fun i => e_ax s i <? mcols (c_mat (e_c s))) (seq 0 (length (actives (e_mask s))))) with true.
  2:{ symmetry. apply forallb_forall. intros j Hj. apply in_seq in Hj. destruct (nth_error (actives (e_mask s)) j) as [i|] eqn:E.
      - rewrite (R6 j i E), R5. apply Nat.ltb_lt. apply nth_error_In in E. apply actives_lt in E. lia.
      - apply nth_error_None in E. lia. }
  match goal with |- context[acte_fill ?s1 ?c1] => destruct (acte_fill_ok name na s1 c1) as (c' & EC & IC); auto end.
  - cbn [e_w e_mask e_axn e_ax cset_mat c_mat]. split; [exact R1|]. split; [exact R2|]. split; [reflexivity|]. split; [|split; [exact R5|exact R6]].
    split; [reflexivity|]. cbn [mget mcols]. intros j i Hj y Hy.
    assert (j < length (actives (e_mask s))) by (apply nth_error_Some; congruence).
    replace (j <? length (actives (e_mask s))) with true by (symmetry; apply Nat.ltb_lt; lia). cbn [andb Nat.add]. rewrite (R6 j i Hj).
    destruct (y =? i) eqn:E; [reflexivity|]. rewrite (R4' j i Hj y Hy). cbn [Nat.add]. rewrite E. reflexivity.
  - rewrite EC. eexists. split; [reflexivity|]. cbn [e_axn e_mask e_ref e_w e_ax] in IC. split; [exact IC|]. auto.
Qed.
Lemma emade_inv name na s : emade name na s -> einv name na s.
Proof.
  intros (jk & s0 & H0 & Hr). destruct (acte_new_ok jk name na) as (s1 & E & I0 & _). rewrite E in H0. injection H0 as <-.
  revert Hr. apply reach_inv; [exact I0|]. clear. intros s o s' I Hg X. destruct o as [jk m|r|w|].
  - cbn [acte_step] in X. destruct (vlen m =? e_na s) eqn:E; [|injection X as <-; exact I]. apply Nat.eqb_eq in E. specialize (Hg E).
    destruct (acte_mask_ok jk name na s m) as (s1 & E1 & I1 & _); auto; try apply I; [destruct I; congruence|].
    rewrite E1 in X. injection X as <-. exact I1.
  - destruct (Nat.eq_dec (vlen r) na) as [A|A].
    + destruct (acte_ref_ok name na s r I A) as (s1 & E & I' & _). rewrite E in X. injection X as <-. exact I'.
    + cbn [acte_step] in X. rewrite (ei_na _ _ _ I) in X. replace (vlen r =? na) with false in X by (symmetry; apply Nat.eqb_neq; exact A). injection X as <-. exact I.
  - destruct (Nat.eq_dec (vlen w) na) as [A|A].
    + destruct (acte_weight_ok name na s w I A) as (s1 & E & I' & _). rewrite E in X. injection X as <-. exact I'.
    + cbn [acte_step] in X. rewrite (ei_na _ _ _ I) in X. replace (vlen w =? na) with false in X by (symmetry; apply Nat.eqb_neq; exact A). injection X as <-. exact I.
  - injection X as <-. exact I.
Qed.
End P.
