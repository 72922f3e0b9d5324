(** Concrete doubles which meet the hypotheses of the theorems about doubles. *)
From Coq Require Import String List Arith Bool ZArith QArith Reals Lia Lra.
From Flocq Require Import Core BinarySingleNaN.
From Verif Require Import Scalar FloatUtils Doubles Outcome Linalg Constraint Masks JointBounds JointTask JointRefute DoubleJoints DoublePva DoubleMasks.
Import ListNotations.
Open Scope nat_scope.

(** The double 2^n. *)
Definition p2 (n : Z) : Dnum := @Bldexp 53 1024 eq_refl eq_refl mode_NE (@Bone 53 1024 eq_refl eq_refl) n.
Lemma p2_val n : (-1022 <= n <= 1023)%Z -> val (p2 n) = bpow radix2 n /\ fin (p2 n).
Proof.
  intros H. assert (C := @Bldexp_correct 53 1024 eq_refl eq_refl mode_NE (@Bone 53 1024 eq_refl eq_refl) n).
  rewrite Bone_correct, Rmult_1_l in C. change (round radix2 (SpecFloat.fexp 53 1024) (round_mode mode_NE)) with rd in C.
  assert (G : rd (bpow radix2 n) = bpow radix2 n) by (apply round_generic; [apply valid_rnd_N|apply generic_format_FLT_bpow; [reflexivity|lia]]).
  rewrite G in C. rewrite Rlt_bool_true in C by (rewrite Rabs_pos_eq by apply bpow_ge_0; apply bpow_lt; lia). destruct C as (C1 & C2 & _).
  split; [exact C1|]. unfold fin, p2. rewrite C2. apply is_finite_Bone.
Qed.
Lemma le_check (x y : Dnum) : fin x -> fin y -> (x <=? y)%num = true -> (val x <= val y)%R.
Proof. intros Fx Fy E. rewrite d_le in E by assumption. unfold Rleb in E. destruct (Rle_dec _ _); [assumption|discriminate]. Qed.
Lemma abs_check (x : Dnum) n : (-1022 <= n <= 1023)%Z -> fin x -> (x <=? p2 n)%num = true -> (- p2 n <=? x)%num = true -> (Rabs (val x) <= bpow radix2 n)%R.
Proof.
  intros H Fx E1 E2. destruct (p2_val n H) as (V & F). destruct (d_opp (p2 n)) as (VO & FO). apply le_check in E1; try assumption. apply le_check in E2; [|apply FO; exact F|exact Fx].
  rewrite VO in E2. rewrite V in *. apply Rabs_le. lra.
Qed.
Lemma low_check (x : Dnum) n : (-1022 <= n <= 1023)%Z -> fin x -> (p2 n <=? x)%num = true -> (bpow radix2 n <= val x)%R.
Proof. intros H Fx E. destruct (p2_val n H) as (V & F). rewrite <- V. apply le_check; assumption. Qed.
Lemma up_check (x : Dnum) n : (-1022 <= n <= 1023)%Z -> fin x -> (x <=? p2 n)%num = true -> (val x <= bpow radix2 n)%R.
Proof. intros H Fx E. destruct (p2_val n H) as (V & F). rewrite <- V. apply le_check; assumption. Qed.
(** One entry. *)
Definition w1 (x : Dnum) : vec Dnum := mkVec 1 (fun _ => x).
Definition dq (q : Q) : Dnum := dofQ q.

(** * TaskJointBounds: limits -1, 1 and -10, 10, dt = 1/1000, velocity 1/2 *)
Lemma jbd_case name : exists (s s' : jb Dnum), jmade name 1 1 s /\ jb_step s (JCompute (w1 (dq (1 # 2)))) = Ret s' tt /\
  b_dt s = dq (1 # 1000) /\ b_vlb s = w1 (dq (-1)) /\ b_vub s = w1 (dq 1) /\ b_alb s = w1 (dq (-10)) /\ b_aub s = w1 (dq 10).
Proof.
  assert (N : exists s0, @jb_new Dnum name 1 1 (dq (1 # 1000)) = Some s0 /\ b_dt s0 = dq (1 # 1000) /\ b_na s0 = 1).
  { unfold jb_new. replace (n0 <? dq (1 # 1000))%num with true by (vm_compute; reflexivity). eexists. split; [reflexivity|]. split; reflexivity. }
  destruct N as (s0 & E0 & D0 & N0).
  assert (M0 : jmade name 1 1 s0) by (exists (dq (1 # 1000)), s0; split; [exact E0|apply reach_init]).
  destruct (jb_step s0 (JVel (w1 (dq (-1))) (w1 (dq 1)))) as [s1 []|s1|] eqn:E1; cbn [jb_step] in E1; rewrite N0 in E1; cbn [w1 vlen Nat.eqb andb] in E1; try discriminate E1.
  injection E1 as E1.
  destruct (jb_step s1 (JAcc (w1 (dq (-10))) (w1 (dq 10)))) as [s2 []|s2|] eqn:E2; cbn [jb_step] in E2; replace (b_na s1) with 1 in E2 by (rewrite <- E1; reflexivity); cbn [w1 vlen Nat.eqb andb] in E2; try discriminate E2.
  injection E2 as E2.
  assert (M1 : jmade name 1 1 s1). { apply (jmade_step name 1 1 s0 (JVel (w1 (dq (-1))) (w1 (dq 1)))); [exact M0|]. cbn [jb_step]. rewrite N0. cbn [w1 vlen Nat.eqb andb after]. rewrite <- E1. reflexivity. }
  assert (M2 : jmade name 1 1 s2). { apply (jmade_step name 1 1 s1 (JAcc (w1 (dq (-10))) (w1 (dq 10)))); [exact M1|]. cbn [jb_step]. replace (b_na s1) with 1 by (rewrite <- E1; reflexivity). cbn [w1 vlen Nat.eqb andb after]. rewrite <- E2. reflexivity. }
  destruct (jb_computes name 1 1 s2 (w1 (dq (1 # 2)))) as (s3 & E3 & _); [lia|exact M2|cbn; lia|]. exists s2, s3. split; [exact M2|]. split; [exact E3|].
  rewrite <- E2, <- E1. cbn [b_dt b_vlb b_vub b_alb b_aub]. rewrite D0. repeat split.
Qed.
Lemma dq_small : small (dq (-1)) /\ small (dq 1) /\ small (dq (1 # 2)) /\ fin (dq (-10)) /\ fin (dq 10) /\ fin (dq (1 # 1000)) /\ (bpow radix2 (-500) <= val (dq (1 # 1000)))%R.
Proof.
  repeat split; try (vm_compute; reflexivity); try (apply abs_check; [lia| | |]; vm_compute; reflexivity).
  apply low_check; [lia| |]; vm_compute; reflexivity.
Qed.

(** * TaskJointPosVelAccBounds *)
Definition dsqrt (x : Dnum) : Dnum := @Bsqrt 53 1024 eq_refl eq_refl mode_NE x.
Lemma const_01 na : mask01 (@const_vec Dnum na n1).
Proof. intros i _. right. vm_compute. reflexivity. Qed.
Lemma const_actives na : length (actives (@const_vec Dnum na n1)) = na.
Proof.
  unfold actives. cbn [const_vec vlen]. transitivity (length (seq 0 na)); [|apply seq_length]. f_equal.
  assert (O : forall i, is_on (@const_vec Dnum na n1) i = true) by (intros i; vm_compute; reflexivity).
  induction (seq 0 na) as [|i l IH]; [reflexivity|]. cbn [filter]. rewrite O, IH. reflexivity.
Qed.
(** The constructor succeeds for any positive time step. *)
Theorem pvad_new jk name nv na (dt : Dnum) : na <= nv -> (Z.of_nat na <= 2 ^ 53)%Z -> (n0 <? dt)%num = true ->
  exists s0, pva_new Dtrunc jk name nv na dt = Some (Some s0) /\ p_na s0 = na /\ p_dt s0 = (two * dt)%num /\
    vlen (c_lb (p_c s0)) = na /\ vlen (c_ub (p_c s0)) = na.
Proof.
  intros Hn H53 Hd. unfold pva_new. rewrite Hd. unfold pva_mask. cbn [p_nv p_na p_c].
  destruct (set_mask_D jk nv (nv - na) (fun _ => n1) (const_vec na n1) (const_01 na) H53) as (M & ax & -> & _); [cbn; lia|].
  rewrite const_actives. unfold cresize. cbn [new_ineq c_kind obind p_c cset_mat c_lb c_ub c_name c_mat c_vec vlen vzero].
  rewrite Nat.leb_refl. cbn [guard obind]. eexists. split; [reflexivity|]. cbn [p_na p_dt p_c c_lb c_ub over vlen vzero]. auto.
Qed.
Lemma pvad_case name : exists (s s' : pva Dnum), dmade dsqrt Dtrunc name 1 1 (dq (1 # 2)) s /\
  pva_step dsqrt Dtrunc s (PCompute (w1 (dq (1 # 2))) (w1 (dq (1 # 4)))) = Ret s' tt /\ p_ipos s = true /\
  p_qmin s = w1 (dq 0) /\ p_qmax s = w1 (dq 1) /\ p_dqmax s = w1 (dq 2) /\ p_ddqmax s = w1 (dq 3) /\ p_ivel s = true /\ p_iacc s = true /\
  (vget (c_lb (p_c s')) 0 <? vget (c_ub (p_c s')) 0)%num = true.
Proof.
  destruct (pvad_new (fun _ => 0) name 1 1 (dq (1 # 2))) as (s0 & E0 & N0 & D0 & _); [lia|cbn; lia|vm_compute; reflexivity|].
  assert (M0 : dmade dsqrt Dtrunc name 1 1 (dq (1 # 2)) s0) by (exists (fun _ => 0), s0; split; [exact E0|apply reach_init]).
  assert (T : forall s o s', dmade dsqrt Dtrunc name 1 1 (dq (1 # 2)) s -> keeps_dt s o -> pva_step dsqrt Dtrunc s o = Ret s' tt -> dmade dsqrt Dtrunc name 1 1 (dq (1 # 2)) s').
  { intros s o s' (jk & t0 & A & B) Hk E. exists jk, t0. split; [exact A|]. eapply reach_step; [exact B|exact Hk|]. rewrite E. reflexivity. }
  assert (E1 : exists s1, pva_step dsqrt Dtrunc s0 (PPos (w1 (dq 0)) (w1 (dq 1))) = Ret s1 tt /\ p_na s1 = 1 /\ p_ipos s1 = true /\ p_ivia s1 = true /\ p_qmin s1 = w1 (dq 0) /\ p_qmax s1 = w1 (dq 1)).
  { cbn [pva_step]. rewrite N0. cbn [w1 vlen Nat.eqb andb]. eexists. split; [reflexivity|]. cbn [w_lims p_na p_ipos p_ivia p_qmin p_qmax]. auto. }
  destruct E1 as (s1 & E1 & N1 & P1 & V1 & Q1 & Q2). assert (M1 := T s0 (PPos (w1 (dq 0)) (w1 (dq 1))) s1 M0 I E1).
  assert (E2 : exists s2, pva_step dsqrt Dtrunc s1 (PVel (w1 (dq 2))) = Ret s2 tt /\ p_na s2 = 1 /\ p_ipos s2 = true /\ p_ivia s2 = true /\ p_qmin s2 = w1 (dq 0) /\ p_qmax s2 = w1 (dq 1) /\ p_dqmax s2 = w1 (dq 2) /\ p_ivel s2 = true).
  { cbn [pva_step]. rewrite N1. cbn [w1 vlen Nat.eqb andb]. eexists. split; [reflexivity|]. cbn [w_lims p_na p_ipos p_ivia p_ivel p_qmin p_qmax p_dqmax]. auto 10. }
  destruct E2 as (s2 & E2 & N2 & P2 & V2 & R1 & R2 & R3 & R4). assert (M2 := T s1 (PVel (w1 (dq 2))) s2 M1 I E2).
  assert (E3 : exists s3, pva_step dsqrt Dtrunc s2 (PAcc (w1 (dq 3))) = Ret s3 tt /\ p_na s3 = 1 /\ p_ipos s3 = true /\ p_ivia s3 = true /\ p_qmin s3 = w1 (dq 0) /\ p_qmax s3 = w1 (dq 1) /\ p_dqmax s3 = w1 (dq 2) /\ p_ivel s3 = true /\ p_ddqmax s3 = w1 (dq 3) /\ p_iacc s3 = true).
  { cbn [pva_step]. rewrite N2. cbn [w1 vlen Nat.eqb andb]. eexists. split; [reflexivity|]. cbn [w_lims p_na p_ipos p_ivia p_ivel p_iacc p_qmin p_qmax p_dqmax p_ddqmax]. auto 12. }
  destruct E3 as (s3 & E3 & N3 & P3 & V3 & S1 & S2 & S3 & S4 & S5 & S6). assert (M3 := T s2 (PAcc (w1 (dq 3))) s3 M2 I E3).
  destruct (dmade_inv _ _ _ _ _ _ _ M3) as (_ & J1 & J2 & J3 & J4).
  assert (E4 : exists s4, pva_step dsqrt Dtrunc s3 (PCompute (w1 (dq (1 # 2))) (w1 (dq (1 # 4)))) = Ret s4 tt /\
     (vget (c_lb (p_c s4)) 0 <? vget (c_ub (p_c s4)) 0)%num = true).
  { cbn [pva_step]. unfold pva_compute. rewrite N3. unfold vtail. cbn [w1 vlen Nat.leb]. unfold vsegment. cbn [vlen Nat.sub Nat.add Nat.leb obind].
    eexists. split; [reflexivity|]. cbn [p_c c_lb c_ub vget].
    rewrite P3, V3, S1, S2, S3, S4, S5, S6, J1. cbn [w1 vget]. 
    rewrite J2, J3, J4. vm_compute. reflexivity. }
  destruct E4 as (s4 & E4 & L). exists s3, s4. auto 15.
Qed.

(** * The slack is needed: limit 1, velocity 0, dt = 0.1, largest acceleration 10 *)
Lemma jbd_slack_needed name : exists (s s' : jb Dnum), jmade name 1 1 s /\ jb_step s (JCompute (w1 (dq 0))) = Ret s' tt /\
  b_dt s = dq (1 # 10) /\ b_vub s = w1 (dq 1) /\ val (dq 1) = 1%R /\ val (dq 0) = 0%R /\
  (val (dq 1) < val (dq 0) + val (b_dt s) * val (vget (c_ub (b_c s')) 0))%R.
Proof.
  assert (N : exists s0, @jb_new Dnum name 1 1 (dq (1 # 10)) = Some s0 /\ b_dt s0 = dq (1 # 10) /\ b_na s0 = 1 /\ b_nv s0 = 1 /\ b_aub s0 = mkVec 1 (fun _ => (huge * n1)%num)).
  { unfold jb_new. replace (n0 <? dq (1 # 10))%num with true by (vm_compute; reflexivity). eexists. split; [reflexivity|]. repeat split. }
  destruct N as (s0 & E0 & D0 & N0 & NV0 & A0).
  assert (M0 : jmade name 1 1 s0) by (exists (dq (1 # 10)), s0; split; [exact E0|apply reach_init]).
  assert (X : exists s1, jb_step s0 (JVel (w1 (dq (-1))) (w1 (dq 1))) = Ret s1 tt /\ b_dt s1 = dq (1 # 10) /\ b_na s1 = 1 /\ b_nv s1 = 1 /\ b_aub s1 = mkVec 1 (fun _ => (huge * n1)%num) /\ b_vub s1 = w1 (dq 1)).
  { cbn [jb_step]. rewrite N0. cbn [w1 vlen Nat.eqb andb]. eexists. split; [reflexivity|]. cbn [b_dt b_na b_nv b_aub b_vub]. auto 10. }
  destruct X as (s1 & E1 & D1 & N1 & NV1 & A1 & V1).
  assert (M1 : jmade name 1 1 s1) by (apply (jmade_step name 1 1 s0 (JVel (w1 (dq (-1))) (w1 (dq 1)))); [exact M0|rewrite E1; reflexivity]).
  destruct (jb_computes name 1 1 s1 (w1 (dq 0))) as (s2 & E2 & R & _); [lia|exact M1|cbn; lia|].
  exists s1, s2. split; [exact M1|]. split; [exact E2|]. split; [exact D1|]. split; [exact V1|].
  destruct R as (_ & _ & _ & _ & _ & _ & R). rewrite N1, NV1 in R. destruct (R 0 ltac:(lia)) as (_ & RU). rewrite V1, A1, D1 in RU. cbn [Nat.sub Nat.add] in RU.
  rewrite RU, D1.
  assert (T1 : val (dq 1) = 1%R) by (rewrite val_SF; replace (B2SF (dq 1 : f64)) with (SpecFloat.S754_finite false 4503599627370496 (-52)) by (vm_compute; reflexivity); unfold SF2R, F2R; cbn; lra).
  assert (T2 : val (dq 0) = 0%R) by (rewrite val_SF; replace (B2SF (dq 0 : f64)) with (SpecFloat.S754_zero false) by (vm_compute; reflexivity); reflexivity).
  split; [exact T1|]. split; [exact T2|]. rewrite T1, T2, (val_SF (dq (1 # 10))), (val_SF (nmin _ _)).
  replace (B2SF (dq (1 # 10) : f64)) with (SpecFloat.S754_finite false 7205759403792794 (-56)) by (vm_compute; reflexivity).
  match goal with |- context [B2SF ?x] => replace (B2SF x) with (SpecFloat.S754_finite false 5629499534213120 (-49)) by (vm_compute; reflexivity) end.
  unfold SF2R, F2R. cbn. lra.
Qed.
