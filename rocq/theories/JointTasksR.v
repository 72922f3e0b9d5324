(** What the constraints of the masked joint tasks mean, over the reals. *)
From Coq Require Import String List Arith Bool ZArith QArith Reals Lia Lra.
From Verif Require Import Scalar Outcome Linalg Constraint FormPhysSpec RSum Masks MaskReal JointBounds JointTask JointTasks JointTasksP JointRefute.
Import ListNotations.
Open Scope nat_scope.

Lemma good_R (m : vec Rnum) : mask01 m -> good_mask Rtrunc m.
Proof. intros H. split; [exact H|apply mask_counted; exact H]. Qed.
Lemma good_ones_R n : good_mask Rtrunc (mkVec n (fun _ => @n1 Rnum)).
Proof. apply good_R. intros i _. right. apply Reqb_true. reflexivity. Qed.
Lemma row_reads off (val : nat -> Rnum) (l : list nat) (M : mat Rnum) j i (x : nat -> R) : selects off val l M -> nth_error l j = Some i ->
  off + i < mcols M -> rsum (mcols M) (fun y => mget M j y * x y)%R = (val i * x (off + i)%nat)%R.
Proof.
  intros [_ H] Hj Hi. rewrite (rsum_single _ (off + i)) by
    (try exact Hi; intros y Hy Hne; rewrite (H j i Hj y Hy); replace (y =? off + i) with false by (symmetry; apply Nat.eqb_neq; exact Hne); change (@n0 Rnum) with 0%R; lra).
  rewrite (H j i Hj _ Hi), Nat.eqb_refl. reflexivity.
Qed.
Definition active (m : vec Rnum) (i : nat) : Prop := vget m i <> 0%R.
Lemma active_in (m : vec Rnum) i : In i (actives m) <-> i < vlen m /\ active m i.
Proof.
  unfold actives, active, is_on. rewrite filter_In, in_seq. rewrite negb_true_iff, Reqb_false. change (@n0 Rnum) with 0%R. intuition lia.
Qed.

Notation pdif := (vec Rnum -> vec Rnum -> nat -> Rnum).
(** The difference depends on the entries of the configurations only. *)
Definition respects (dif : pdif) : Prop := forall a b q i, veq a b -> dif a q i = dif b q i.
Section S.
Variable dif : pdif.
Local Notation made := (tmade Rtrunc dif).
Local Notation step := (post_step Rtrunc dif).
Lemma rows_lhs off (val : nat -> Rnum) cols na m axn ax (c : constr Rnum) y j i : rows_ok Rtrunc off val cols na m axn ax (c_mat c) -> c_kind c <> CBound -> off + na <= cols ->
  nth_error (actives m) j = Some i -> lhs c y j = (val i * y (off + i)%nat)%R.
Proof.
  intros (R1 & R2 & R3 & R4 & R5 & R6) HK Hc Hj. assert (Hi : i < na) by (rewrite <- R1; eapply actives_lt, nth_error_In; exact Hj).
  unfold lhs. destruct (c_kind c); [| |congruence]; apply (row_reads off val (actives m)); auto; lia.
Qed.
Theorem post_meaning name neu nqa nv na s q v s' : respects dif -> na <= nv -> nqa <= vlen neu -> made name neu nqa nv na s ->
  step s (TCompute q v) = Ret s' tt -> forall y, sat (t_c s') y <->
  forall i, i < na -> active (t_mask s) i ->
    y (nv - na + i) = (vget (t_sec s) i - vget (t_kp s) i * dif (ref_config neu (t_val s)) q (nv - na + i) - vget (t_kd s) i * (last_of na v i - vget (t_der s) i))%R.
Proof.
  intros HD Hn Hq Hm E y. assert (I := tmade_inv Rtrunc dif good_ones_R _ _ _ _ _ _ Hn Hq Hm).
  assert (Lq : vlen q = vlen neu /\ na <= vlen v).
  { cbn [post_step] in E. unfold post_compute in E. destruct I as [I1 I2 I3 I4 _ _ _ _ _ _ _ _ _ _ _ _].
    destruct (if t_nqa s <=? _ then _ else _); [|discriminate]. destruct (vlen q =? t_nq s) eqn:EQ; [|discriminate]. apply Nat.eqb_eq in EQ.
    split; [congruence|]. destruct (vtail (mkVec _ _) _); [|discriminate]. cbn [obind] in E. destruct (vtail v (t_na s)) eqn:EV; [|discriminate].
    apply vtail_some in EV as [EV _]. lia. }
  destruct Lq as [Lq Lv]. destruct (post_compute_ok Rtrunc dif name neu nqa nv na s q v Hn Hq I Lq Lv) as (s1 & E1 & SP & I' & A & B & C & D & _ & _ & _ & F).
  cbn [post_step] in E. rewrite E1 in E. injection E as <-. unfold sat. rewrite (ti_kind _ _ _ _ _ _ _ I').
  destruct SP as (_ & _ & _ & _ & _ & EM). assert (RR := ti_rows _ _ _ _ _ _ _ I'). rewrite EM in RR.
  assert (X : forall j i, nth_error (actives (t_mask s)) j = Some i -> lhs (t_c s1) y j = y (nv - na + i)).
  { intros j i Hj. rewrite (rows_lhs (nv - na) (fun _ => n1) nv na (t_mask s) _ _ _ y j i RR); [change (@n1 Rnum) with 1%R; apply Rmult_1_l| |lia|exact Hj].
    rewrite (ti_kind _ _ _ _ _ _ _ I'). discriminate. }
  assert (Y : forall i, i < na -> vget (t_ades s1) i = (vget (t_sec s) i - vget (t_kp s) i * dif (ref_config neu (t_val s)) q (nv - na + i)%nat - vget (t_kd s) i * (last_of na v i - vget (t_der s) i))%R).
  { intros i Hi. rewrite D by exact Hi. unfold post_des. rewrite (HD _ _ q (nv - na + i) A). unfold Rnum; cbn. lra. }
  assert (LM : vlen (t_mask s) = na) by apply RR.
  rewrite (ti_vec _ _ _ _ _ _ _ I'), EM. split.
  - intros H i Hi Ha. assert (HI : In i (actives (t_mask s))) by (apply active_in; split; [lia|exact Ha]).
    apply In_nth_error in HI as [j Hj]. rewrite <- Y by exact Hi. rewrite <- (F j i Hj), <- (X j i Hj). apply H. apply nth_error_Some. congruence.
  - intros H j Hj. destruct (nth_error (actives (t_mask s)) j) as [i|] eqn:EJ; [|apply nth_error_None in EJ; lia].
    assert (HI := nth_error_In _ _ EJ). apply active_in in HI as [Hi Ha]. rewrite (X j i EJ), (F j i EJ), Y by lia. apply H; [lia|exact Ha].
Qed.
(** getAcceleration and getDesiredAcceleration. *)
Theorem post_reports name neu nqa nv na s q v s' dv : na <= nv -> nqa <= vlen neu -> made name neu nqa nv na s ->
  step s (TCompute q v) = Ret s' tt -> vlen dv = nv ->
  exists a, post_acc s' dv = Some a /\ vlen a = length (actives (t_mask s)) /\ vlen (t_ades s') = na /\
    (forall j i, nth_error (actives (t_mask s)) j = Some i -> vget a j = vget dv (nv - na + i)) /\
    (sat (t_c s') (vget dv) <-> forall j i, nth_error (actives (t_mask s)) j = Some i -> vget a j = vget (t_ades s') i).
Proof.
  intros Hn Hq Hm E Hd. assert (I := tmade_inv Rtrunc dif good_ones_R _ _ _ _ _ _ Hn Hq Hm).
  assert (Lq : vlen q = vlen neu /\ na <= vlen v).
  { cbn [post_step] in E. unfold post_compute in E. destruct I as [I1 I2 I3 I4 _ _ _ _ _ _ _ _ _ _ _ _].
    destruct (if t_nqa s <=? _ then _ else _); [|discriminate]. destruct (vlen q =? t_nq s) eqn:EQ; [|discriminate]. apply Nat.eqb_eq in EQ.
    split; [congruence|]. destruct (vtail (mkVec _ _) _); [|discriminate]. cbn [obind] in E. destruct (vtail v (t_na s)) eqn:EV; [|discriminate].
    apply vtail_some in EV as [EV _]. lia. }
  destruct Lq as [Lq Lv]. destruct (post_compute_ok Rtrunc dif name neu nqa nv na s q v Hn Hq I Lq Lv) as (s1 & E1 & SP & I' & A & B & C & D & _ & _ & _ & F).
  cbn [post_step] in E. rewrite E1 in E. injection E as <-. destruct SP as (_ & _ & _ & _ & _ & EM).
  assert (RR := ti_rows _ _ _ _ _ _ _ I'). rewrite EM in RR. assert (HK := ti_kind _ _ _ _ _ _ _ I').
  assert (X : forall j i, nth_error (actives (t_mask s)) j = Some i -> lhs (t_c s1) (vget dv) j = vget dv (nv - na + i)).
  { intros j i Hj. rewrite (rows_lhs (nv - na) (fun _ => n1) nv na (t_mask s) _ _ _ (vget dv) j i RR); [change (@n1 Rnum) with 1%R; apply Rmult_1_l| |lia|exact Hj].
    rewrite HK. discriminate. }
  assert (Z : forall j, lhs (t_c s1) (vget dv) j = rsum (mcols (c_mat (t_c s1))) (fun k => mget (c_mat (t_c s1)) j k * vget dv k)%R) by (intros j; unfold lhs; rewrite HK; reflexivity).
  destruct RR as (R1 & R2 & R3 & (R4 & R4') & R5 & R6).
  unfold post_acc, mvec. rewrite R5, Hd, Nat.eqb_refl. eexists. split; [reflexivity|]. cbn [vlen vget]. split; [exact R4|]. split; [exact C|].
  assert (G : forall j i, nth_error (actives (t_mask s)) j = Some i -> rsum nv (fun k => mget (c_mat (t_c s1)) j k * vget dv k)%R = vget dv (nv - na + i)%nat).
  { intros j i Hj. rewrite <- (X j i Hj), Z, R5. reflexivity. }
  split; [exact G|]. unfold sat. rewrite HK, (ti_vec _ _ _ _ _ _ _ I'), EM. split.
  - intros H j i Hj. rewrite <- (F j i Hj). etransitivity; [apply (G j i Hj)|]. rewrite <- (X j i Hj). apply H. apply nth_error_Some. congruence.
  - intros H j Hj. destruct (nth_error (actives (t_mask s)) j) as [i|] eqn:EJ; [|apply nth_error_None in EJ; lia].
    rewrite (X j i EJ), (F j i EJ), <- (H j i EJ). symmetry. apply (G j i EJ).
Qed.
(** What the other getters return after compute; position() stays empty for ever. *)
Theorem post_getters name neu nqa nv na s q v : na <= nv -> nqa <= vlen neu -> made name neu nqa nv na s ->
  vlen q = vlen neu -> na <= vlen v -> respects dif ->
  exists s', step s (TCompute q v) = Ret s' tt /\
    vlen (t_v s') = na /\ vlen (t_perr s') = na /\ vlen (t_verr s') = na /\
    (forall i, i < na -> vget (t_v s') i = last_of na v i /\ vget (t_verr s') i = (last_of na v i - vget (t_der s) i)%R /\
       vget (t_perr s') i = dif (ref_config neu (t_val s)) q (nv - na + i)) /\
    vlen (t_p s') = 0.
Proof.
  intros Hn Hq Hm Lq Lv HD. assert (I := tmade_inv Rtrunc dif good_ones_R _ _ _ _ _ _ Hn Hq Hm).
  destruct (post_compute_ok Rtrunc dif name neu nqa nv na s q v Hn Hq I Lq Lv) as (s1 & E1 & SP & I' & A & B & C & D & P & V & (L1 & L2 & L3 & L4) & F).
  exists s1. split; [exact E1|]. split; [exact L3|]. split; [exact L1|]. split; [exact L2|]. split.
  - intros i Hi. split; [apply L4; exact Hi|]. split; [apply V; exact Hi|]. rewrite P by exact Hi. apply HD. exact A.
  - rewrite (ti_p _ _ _ _ _ _ _ I'). reflexivity.
Qed.
End S.

(** ** Actuation bounds *)
Theorem actb_meaning name na s : umade Rtrunc name na s -> forall tau, sat (u_c s) tau <->
  forall j i, nth_error (actives (u_mask s)) j = Some i -> (vget (c_lb (u_c s)) j <= tau i <= vget (c_ub (u_c s)) j)%R.
Proof.
  intros Hm tau. destruct (umade_inv Rtrunc good_ones_R name na s Hm) as [I1 I2 I3 I4 I5 I6]. unfold sat. rewrite I4, I5.
  assert (X : forall j i, nth_error (actives (u_mask s)) j = Some i -> lhs (u_c s) tau j = tau i).
  { intros j i Hj. rewrite (rows_lhs 0 (fun _ => n1) na na (u_mask s) _ _ _ tau j i I2); [change (@n1 Rnum) with 1%R; apply Rmult_1_l| |lia|exact Hj].
    rewrite I4. discriminate. }
  split.
  - intros H j i Hj. rewrite <- (X j i Hj). apply H. apply nth_error_Some. congruence.
  - intros H j Hj. destruct (nth_error (actives (u_mask s)) j) as [i|] eqn:EJ; [|apply nth_error_None in EJ; lia].
    rewrite (X j i EJ). apply H. exact EJ.
Qed.
Lemma umade_step name na s o s' : umade Rtrunc name na s -> ugood Rtrunc s o -> after (actb_step Rtrunc s o) = Some s' -> umade Rtrunc name na s'.
Proof. intros (jk & s0 & H0 & Hr) Hg E. exists jk, s0. split; [exact H0|]. eapply reach_step; eassumption. Qed.
(** setMask then setBounds: the torques of the active joints within their bounds. *)
Theorem actb_masked name na s jk m l u : umade Rtrunc name na s -> vlen m = na -> mask01 m ->
  vlen l = length (actives m) -> vlen u = length (actives m) ->
  exists s1 s2, actb_step Rtrunc s (UMask jk m) = Ret s1 tt /\ actb_step Rtrunc s1 (UBounds l u) = Ret s2 tt /\
    (forall tau, sat (u_c s2) tau <-> forall j i, nth_error (actives m) j = Some i -> (vget l j <= tau i <= vget u j)%R) /\
    (forall tau, sat (u_c s1) tau <-> forall i, i < na -> active m i -> tau i = 0%R).
Proof.
  intros Hm Lm H01 Ll Lu. assert (I := umade_inv Rtrunc good_ones_R name na s Hm).
  destruct (actb_mask_ok Rtrunc jk name na s m) as (s1 & E1 & I1 & M1 & B1 & B2); auto; try apply I; [apply good_R; exact H01|].
  assert (X1 : actb_step Rtrunc s (UMask jk m) = Ret s1 tt).
  { cbn [actb_step]. rewrite (ui_na _ _ _ _ I), Lm, Nat.eqb_refl, E1. reflexivity. }
  destruct (actb_set Rtrunc name na s1 l u I1) as (s2 & E2 & I2 & M2 & B3 & B4); [rewrite M1; exact Ll|rewrite M1; exact Lu|].
  exists s1, s2. split; [exact X1|]. split; [exact E2|].
  assert (U1 : umade Rtrunc name na s1) by (eapply umade_step; [exact Hm| |rewrite X1; reflexivity]; intros _; apply good_R; exact H01).
  assert (U2 : umade Rtrunc name na s2) by (eapply umade_step; [exact U1| |rewrite E2; reflexivity]; exact Logic.I).
  split; intros tau.
  - rewrite (actb_meaning name na s2 U2), B3, B4, M2, M1. reflexivity.
  - rewrite (actb_meaning name na s1 U1), B1, B2, M1. cbn [vget vzero]. change (@n0 Rnum) with 0%R. split.
    + intros H i Hi Ha. assert (HI : In i (actives m)) by (apply active_in; split; [lia|exact Ha]). apply In_nth_error in HI as [j Hj].
      specialize (H j i Hj). lra.
    + intros H j i Hj. apply nth_error_In, active_in in Hj as [Hi Ha]. rewrite (H i) by (lia || exact Ha). lra.
Qed.

(** ** Actuation equality *)
Theorem acte_meaning name na s : emade Rtrunc name na s -> forall tau, sat (e_c s) tau <->
  forall i, i < na -> active (e_mask s) i -> vget (e_w s) i <> 0%R -> tau i = vget (e_ref s) i.
Proof.
  intros Hm tau. destruct (emade_inv Rtrunc good_ones_R name na s Hm) as [I1 I2 I3 I4 I5 I6 I7 I8]. unfold sat. rewrite I6, I7.
  assert (X : forall j i, nth_error (actives (e_mask s)) j = Some i -> lhs (e_c s) tau j = (vget (e_w s) i * tau i)%R).
  { intros j i Hj. rewrite (rows_lhs 0 (vget (e_w s)) na na (e_mask s) _ _ _ tau j i I4); [reflexivity| |lia|exact Hj]. rewrite I6. discriminate. }
  assert (LM : vlen (e_mask s) = na) by apply I4. split.
  - intros H i Hi Ha Hw. assert (HI : In i (actives (e_mask s))) by (apply active_in; split; [lia|exact Ha]). apply In_nth_error in HI as [j Hj].
    assert (Z : lhs (e_c s) tau j = vget (c_vec (e_c s)) j) by (apply H, nth_error_Some; congruence).
    rewrite (X j i Hj), (I8 j i Hj) in Z. change (vget (e_w s) i * tau i = vget (e_ref s) i * vget (e_w s) i)%R in Z.
    apply (Rmult_eq_reg_l (vget (e_w s) i)); [|exact Hw]. lra.
  - intros H j Hj. destruct (nth_error (actives (e_mask s)) j) as [i|] eqn:EJ; [|apply nth_error_None in EJ; lia].
    rewrite (X j i EJ), (I8 j i EJ). change (vget (e_w s) i * tau i = vget (e_ref s) i * vget (e_w s) i)%R.
    assert (HI := nth_error_In _ _ EJ). apply active_in in HI as [Hi Ha].
    destruct (Req_dec (vget (e_w s) i) 0) as [Z|Z]; [rewrite Z; lra|]. rewrite (H i) by (lia || assumption). lra.
Qed.
Lemma emade_step name na s o s' : emade Rtrunc name na s -> egood Rtrunc s o -> after (acte_step Rtrunc s o) = Some s' -> emade Rtrunc name na s'.
Proof. intros (jk & s0 & H0 & Hr) Hg E. exists jk, s0. split; [exact H0|]. eapply reach_step; eassumption. Qed.
(** The setters: mask, reference and weights are independent parameters. *)
Theorem acte_setters name na s : emade Rtrunc name na s ->
  (forall jk m, vlen m = na -> mask01 m -> exists s', acte_step Rtrunc s (EMask jk m) = Ret s' tt /\ emade Rtrunc name na s' /\
     e_mask s' = m /\ e_ref s' = e_ref s /\ e_w s' = e_w s) /\
  (forall r, vlen r = na -> exists s', acte_step Rtrunc s (ERef r) = Ret s' tt /\ emade Rtrunc name na s' /\
     e_mask s' = e_mask s /\ e_ref s' = r /\ e_w s' = e_w s) /\
  (forall w, vlen w = na -> exists s', acte_step Rtrunc s (EWeight w) = Ret s' tt /\ emade Rtrunc name na s' /\
     e_mask s' = e_mask s /\ e_ref s' = e_ref s /\ e_w s' = w).
Proof.
  intros Hm. assert (I := emade_inv Rtrunc good_ones_R name na s Hm). split; [|split].
  - intros jk m Lm H01. destruct (acte_mask_ok Rtrunc jk name na s m) as (s1 & E1 & I1 & A); auto; try apply I; [apply good_R; exact H01|].
    assert (X : acte_step Rtrunc s (EMask jk m) = Ret s1 tt) by (cbn [acte_step]; rewrite (ei_na _ _ _ _ I), Lm, Nat.eqb_refl, E1; reflexivity).
    exists s1. split; [exact X|]. split; [|exact A]. eapply emade_step; [exact Hm| |rewrite X; reflexivity]. intros _. apply good_R; exact H01.
  - intros r Lr. destruct (acte_ref_ok Rtrunc name na s r I Lr) as (s1 & X & _ & A). exists s1. split; [exact X|]. split; [|exact A].
    eapply emade_step; [exact Hm| |rewrite X; reflexivity]. exact Logic.I.
  - intros w Lw. destruct (acte_weight_ok Rtrunc name na s w I Lw) as (s1 & X & _ & A). exists s1. split; [exact X|]. split; [|exact A].
    eapply emade_step; [exact Hm| |rewrite X; reflexivity]. exact Logic.I.
Qed.

(** ** Rejected masks *)
Lemma mask2_throws jk cols off (val : nat -> Rnum) : exists ax, set_mask Rtrunc jk cols off val (v1 2) = MThrow 2 ax.
Proof.
  unfold set_mask. cbn [v1 vlen vget nsum]. replace (Rtrunc (@nadd Rnum n0 2%R)) with 2%Z.
  2:{ change (@nadd Rnum n0 2%R) with (0 + 2)%R. replace (0 + 2)%R with (INR 2) by (cbn; lra). rewrite Rtrunc_INR. reflexivity. }
  cbn [Z.ltb Z.compare seq fold_left mask_step]. 
  replace (@neqb Rnum (vget (v1 2) 0) n0) with false by (symmetry; apply Reqb_false; cbn; lra).
  replace (@neqb Rnum (vget (v1 2) 0) n1) with false by (symmetry; apply Reqb_false; cbn; lra). cbn [negb].
  eexists. reflexivity.
Qed.
Theorem mask_rejected_posture dif name neu : vlen neu = 1 -> forall jk, exists (s s1 : post Rnum), tmade Rtrunc dif name neu 1 1 1 s /\
  post_step Rtrunc dif s (TMask jk (v1 2)) = Exc s1 /\ t_mask s <> t_mask s1 /\
  forall q v, vlen q = 1 -> vlen v = 1 ->
    (exists s', post_step Rtrunc dif s (TCompute q v) = Ret s' tt) /\ post_step Rtrunc dif s1 (TCompute q v) = Undef.
Proof.
  intros Hn jk. destruct (post_new_ok Rtrunc good_ones_R (fun _ => 0) name neu 1 1 1) as (s & E & I & M); [lia|lia|].
  assert (Hm : tmade Rtrunc dif name neu 1 1 1 s) by (exists (fun _ => 0), s; split; [exact E|apply reach_init]).
  destruct (mask2_throws jk 1 0 (fun _ => n1)) as (ax & EX).
  exists s. cbn [post_step]. rewrite (ti_na _ _ _ _ _ _ _ I). cbn [v1 vlen Nat.eqb]. unfold post_mask.
  rewrite (ti_nv _ _ _ _ _ _ _ I), (ti_na _ _ _ _ _ _ _ I). cbn [Nat.sub]. fold (v1 2). rewrite EX. eexists. split; [exact Hm|]. split; [reflexivity|].
  cbn [t_mask]. split.
  - rewrite M. intros X. injection X as X. assert (Z : (fun _ : nat => @n1 Rnum) 0 = (fun i => vget (v1 2) i) 0) by (unfold v1; cbn [vget]; exact (f_equal (fun f => f 0) X)).
    cbn in Z. lra.
  - intros q v Hq Hv. split.
    + destruct (post_defined Rtrunc dif good_ones_R name neu 1 1 1 s q v) as (s' & E' & _); auto; [lia|lia|lia|]. exists s'. exact E'.
    + unfold post_compute. cbn [t_nqa t_aug t_val t_nq t_nv t_na t_kp t_kd t_der t_sec t_c t_axn t_ax].
      destruct (if t_nqa s <=? _ then _ else _) as [aug|] eqn:EA; [|reflexivity]. rewrite (ti_nq _ _ _ _ _ _ _ I), Hn, Hq. cbn [Nat.eqb].
      destruct (vtail (mkVec 1 _) 1) as [pe|] eqn:EP; [|reflexivity]. cbn [obind].
      destruct (vtail v 1) as [va|]; [|reflexivity]. cbn [obind].
      destruct (vsub va (t_der s)) as [ve|]; [|reflexivity]. cbn [obind].
      destruct (guard _); [|reflexivity]. cbn [obind]. unfold fill. rewrite (ti_vec _ _ _ _ _ _ _ I), M. 
      assert (AL : length (actives (mkVec 1 (fun _ => @n1 Rnum))) <= 1) by (unfold actives; cbn [vlen]; etransitivity; [apply filter_len|]; cbn; lia).
      replace (2 <=? length (actives (mkVec 1 (fun _ => @n1 Rnum)))) with false by (symmetry; apply Nat.leb_gt; lia). reflexivity.
Qed.
Theorem mask_rejected_bounds name jk l u : vlen l = 2 -> vlen u = 2 -> exists (s s1 s2 : actb Rnum), umade Rtrunc name 1 s /\
  actb_step Rtrunc s (UMask jk (v1 2)) = Exc s1 /\ actb_step Rtrunc s1 (UBounds l u) = Ret s2 tt /\
  mrows (c_mat (u_c s2)) = 1 /\ vlen (c_lb (u_c s2)) = 2 /\ actb_step Rtrunc s (UBounds l u) = Exc s.
Proof.
  intros Hl Hu. destruct (actb_new_ok Rtrunc good_ones_R (fun _ => 0) name 1) as (s & E & I & M).
  destruct (mask2_throws jk 1 0 (fun _ => n1)) as (ax & EX).
  assert (AC : actives (u_mask s) = [0]).
  { rewrite M. rewrite ones_actives; [reflexivity|]. intros i _. reflexivity. }
  exists s. cbn [actb_step]. rewrite (ui_na _ _ _ _ I). cbn [v1 vlen Nat.eqb]. unfold actb_mask. rewrite (ui_na _ _ _ _ I). fold (v1 2). rewrite EX.
  do 2 eexists. split; [exists (fun _ => 0), s; split; [exact E|apply reach_init]|]. split; [reflexivity|]. 
  split.
  { unfold actb_dim. cbn [u_mask v1 vlen vget nsum]. replace (Rtrunc (@nadd Rnum n0 2%R)) with 2%Z.
    2:{ change (@nadd Rnum n0 2%R) with (0 + 2)%R. replace (0 + 2)%R with (INR 2) by (cbn; lra). rewrite Rtrunc_INR. reflexivity. }
    rewrite Hl, Hu. cbn [Z.of_nat Pos.of_succ_nat Pos.succ Z.eqb Pos.eqb andb]. cbn [u_c]. unfold cset_lb, cset_ub. rewrite (ui_kind _ _ _ _ I). cbn [obind c_kind]. reflexivity. }
  cbn [u_c c_mat c_lb]. split.
  - destruct (ui_rows _ _ _ _ I) as (_ & _ & _ & (R & _) & _). rewrite AC in R. exact R.
  - split; [exact Hl|]. assert (RJ := actb_reject Rtrunc name 1 s l u I ltac:(rewrite AC; cbn; lia)). cbn [actb_step] in RJ. rewrite (ui_na _ _ _ _ I) in RJ. exact RJ.
Qed.
