(** The joint bound tasks in double arithmetic. *)
From Coq Require Import String List Arith Bool ZArith QArith Reals Lia Lra.
From Flocq Require Import Core BinarySingleNaN.
From Verif Require Import Scalar FloatUtils Doubles Outcome Linalg Constraint JointBounds JointTask.
Open Scope R_scope.

(** A finite double of magnitude at most 2^500. *)
Definition small (x : Dnum) : Prop := fin x /\ Rabs (val x) <= bpow radix2 500.
(** Slack of a velocity limit [l] at velocity [v] for time step [h]. *)
Definition vslack (l v h : R) : R := 3 * uro * Rabs (l - v) + h * eta.

Lemma small_sub (x y : Dnum) : small x -> small y -> Rabs (val x - val y) <= bpow radix2 501.
Proof.
  intros (_ & A) (_ & B). replace (bpow radix2 501) with (bpow radix2 500 + bpow radix2 500).
  - eapply Rle_trans; [apply Rabs_triang|]. rewrite Rabs_Ropp. lra.
  - replace 501%Z with (1 + 500)%Z by lia. rewrite bpow_plus. change (bpow radix2 1) with 2. ring.
Qed.
Lemma quot_top x h : Rabs x <= bpow radix2 502 -> bpow radix2 (-500) <= h -> Rabs (x / h) <= top.
Proof.
  intros A B. assert (P := bpow_gt_0 radix2 (-500)). unfold Rdiv. rewrite Rabs_mult, (Rabs_pos_eq (/ h)) by (left; apply Rinv_0_lt_compat; lra).
  apply Rle_trans with (bpow radix2 502 * bpow radix2 500).
  - apply Rmult_le_compat; [apply Rabs_pos|left; apply Rinv_0_lt_compat; lra|exact A|].
    change 500%Z with (- (-500))%Z. rewrite (bpow_opp radix2 (-500)). apply Rinv_le_contravar; assumption.
  - rewrite <- bpow_plus. apply bpow_le. lia.
Qed.
(** The quotient (l - v) / h in doubles. *)
Lemma d_quot (l v h : Dnum) : small l -> small v -> fin h -> bpow radix2 (-500) <= val h ->
  fin ((l - v) / h)%num /\ Rabs (val h * val ((l - v) / h)%num - (val l - val v)) <= vslack (val l) (val v) (val h).
Proof.
  intros Sl Sv Fh Hh. assert (P := bpow_gt_0 radix2 (-500)). assert (D := small_sub l v Sl Sv). assert (U := uro_pos). assert (U2 := uro_small).
  destruct (d_sub l v (proj1 Sl) (proj1 Sv)) as (F1 & _ & e & He & E).
  { eapply Rle_trans; [exact D|]. apply bpow_le. lia. }
  assert (B : Rabs (val (l - v)%num) <= bpow radix2 502).
  { rewrite E, Rabs_mult. replace 502%Z with (501 + 1)%Z by lia. rewrite bpow_plus. apply Rmult_le_compat; try apply Rabs_pos; [exact D|].
    change (bpow radix2 1) with 2. eapply Rle_trans; [apply Rabs_triang|]. rewrite Rabs_R1. lra. }
  destruct (d_div (l - v)%num h F1) as (F2 & _ & e2 & t & He2 & Ht & E2); [lra|apply quot_top; assumption|].
  split; [exact F2|]. rewrite E2, E. set (d := val l - val v). unfold vslack. fold d. set (hh := val h) in *. clearbody hh d.
  replace (hh * (d * (1 + e) / hh * (1 + e2) + t) - d) with (d * (e + e2 + e * e2) + hh * t) by (field; lra).
  eapply Rle_trans; [apply Rabs_triang|]. rewrite !Rabs_mult, (Rabs_pos_eq hh) by lra. apply Rplus_le_compat.
  - rewrite Rmult_comm. apply Rmult_le_compat_r; [apply Rabs_pos|]. eapply Rle_trans; [apply Rabs_triang|]. rewrite Rabs_mult.
    assert (A := Rabs_triang e e2). assert (Rabs e * Rabs e2 <= uro * uro) by (apply Rmult_le_compat; try apply Rabs_pos; assumption).
    assert (uro * uro <= uro * 1) by (apply Rmult_le_compat_l; lra). lra.
  - apply Rmult_le_compat_l; [lra|exact Ht].
Qed.

(** Every acceleration within the computed bounds respects the acceleration limits
    exactly and the velocity limits up to the slack; every acceleration which respects
    both, the velocity limits with the slack to spare, is within the bounds. *)
Theorem jbd_limits name nv na (s s' : jb Dnum) v i : (na <= nv)%nat -> jmade name nv na s ->
  jb_step s (JCompute v) = Ret s' tt -> (i < na)%nat ->
  let vi := last_of na v i in let h := val (b_dt s) in
  let lo := vget (b_vlb s) i in let up := vget (b_vub s) i in
  let al := vget (b_alb s) i in let au := vget (b_aub s) i in
  let l := vget (c_lb (b_c s')) (nv - na + i) in let u := vget (c_ub (b_c s')) (nv - na + i) in
  small lo -> small up -> small vi -> fin al -> fin au -> fin (b_dt s) -> bpow radix2 (-500) <= h ->
  fin l /\ fin u /\ forall a : R,
  (val l <= a <= val u -> val al <= a <= val au /\
     val lo - vslack (val lo) (val vi) h <= val vi + h * a <= val up + vslack (val up) (val vi) h) /\
  (val al <= a <= val au ->
     val lo + vslack (val lo) (val vi) h <= val vi + h * a <= val up - vslack (val up) (val vi) h -> val l <= a <= val u).
Proof.
  intros Hn Hm E Hi vi h lo up al au l u Slo Sup Sv Fal Fau Fh Hh.
  assert (P := bpow_gt_0 radix2 (-500)). destruct (jmade_inv name nv na s Hn Hm) as (I1 & I2 & _).
  assert (Hv : (na <= vlen v)%nat).
  { cbn [jb_step] in E. destruct (jb_compute s v) eqn:EC; [|discriminate]. rewrite <- I1. exact (jb_compute_inv _ _ _ EC). }
  destruct (jb_computes name nv na s v Hn Hm Hv) as (s2 & E2 & R & _). rewrite E2 in E. injection E as <-.
  destruct R as (_ & _ & _ & _ & _ & _ & R). rewrite I1, I2 in R. destruct (R i Hi) as (RL & RU).
  destruct (d_quot lo vi (b_dt s) Slo Sv Fh Hh) as (F1 & Q1). destruct (d_quot up vi (b_dt s) Sup Sv Fh Hh) as (F2 & Q2).
  fold vi lo al in RL. fold vi up au in RU. unfold l, u. rewrite RL, RU. clear RL RU R.
  destruct (d_max _ al F1 Fal) as (F3 & V3). destruct (d_min _ au F2 Fau) as (F4 & V4). split; [exact F3|]. split; [exact F4|].
  rewrite V3, V4. fold h in Q1, Q2. set (x := val ((lo - vi) / b_dt s)%num) in *. set (y := val ((up - vi) / b_dt s)%num) in *.
  apply Rabs_le_inv in Q1, Q2. intros a. assert (0 < h) by (unfold h in *; lra). split.
  - intros (A & B). assert (M1 := Rmax_l x (val al)). assert (M2 := Rmax_r x (val al)). assert (M3 := Rmin_l y (val au)). assert (M4 := Rmin_r y (val au)).
    assert (h * x <= h * a) by (apply Rmult_le_compat_l; lra). assert (h * a <= h * y) by (apply Rmult_le_compat_l; lra). lra.
  - intros (A & B) (C & D). assert (h * x <= h * a) by lra. assert (h * a <= h * y) by lra.
    split; [apply Rmax_lub|apply Rmin_glb]; try assumption; apply Rmult_le_reg_l with h; assumption.
Qed.

(** * No magnitude restriction: signs *)
Definition nonneg (x : Dnum) : Prop := (n0 <=? x)%num = true.
Definition nonpos (x : Dnum) : Prop := (x <=? n0)%num = true.
Lemma nonneg_iff (x : Dnum) : nonneg x <-> (fin x /\ 0 <= val x) \/ x = B754_infinity false.
Proof.
  unfold nonneg, fin, val. cbn [n0 nleb Dnum]. destruct x as [b|b| |b m e p].
  - cbn. destruct b; (split; [left; split; [reflexivity|cbn; lra]|reflexivity]).
  - destruct b; cbn; (split; [intros H; try discriminate; right; reflexivity|intros [(H & _)|H]; try discriminate H; reflexivity]).
  - cbn. split; [discriminate|]. intros [(H & _)|H]; discriminate H.
  - rewrite (@Bleb_correct 53 1024 (B754_zero false) (B754_finite b m e p)) by reflexivity. change (B2R (B754_zero false : f64)) with 0. split.
    + intros H. left. split; [reflexivity|]. revert H. case Rle_bool_spec; [intros H _; exact H|discriminate].
    + intros [(_ & H)|H]; [apply Rle_bool_true; exact H|discriminate H].
Qed.
Lemma nonpos_iff (x : Dnum) : nonpos x <-> (fin x /\ val x <= 0) \/ x = B754_infinity true.
Proof.
  unfold nonpos, fin, val. cbn [n0 nleb Dnum]. destruct x as [b|b| |b m e p].
  - cbn. destruct b; (split; [left; split; [reflexivity|cbn; lra]|reflexivity]).
  - destruct b; cbn; (split; [intros H; try discriminate; right; reflexivity|intros [(H & _)|H]; try discriminate H; reflexivity]).
  - cbn. split; [discriminate|]. intros [(H & _)|H]; discriminate H.
  - rewrite (@Bleb_correct 53 1024 (B754_finite b m e p) (B754_zero false)) by reflexivity. change (B2R (B754_zero false : f64)) with 0. split.
    + intros H. left. split; [reflexivity|]. revert H. case Rle_bool_spec; [intros H _; exact H|discriminate].
    + intros [(_ & H)|H]; [apply Rle_bool_true; exact H|discriminate H].
Qed.
Lemma sign_val (x : Dnum) : fin x -> if Bsign (x : f64) then val x <= 0 else 0 <= val x.
Proof.
  unfold fin, val. destruct x as [b|b| |b m e p]; cbn; try discriminate; intros _; destruct b; try lra.
  - apply F2R_le_0. cbn. lia.
  - apply F2R_ge_0. cbn. lia.
Qed.
Lemma overflow_inf (x : f64) s : B2SF x = binary_overflow 53 1024 mode_NE s -> x = B754_infinity s.
Proof. unfold binary_overflow. cbn. destruct x; cbn; intros H; try discriminate H. injection H as ->. reflexivity. Qed.
Lemma sub_sign (a b : Dnum) : fin a -> fin b ->
  (val b <= val a -> nonneg (a - b)%num) /\ (val a <= val b -> nonpos (a - b)%num).
Proof.
  intros Fa Fb. assert (C := @Bminus_correct 53 1024 eq_refl eq_refl mode_NE a b Fa Fb).
  change (round radix2 (SpecFloat.fexp 53 1024) (round_mode mode_NE)) with rd in C. fold (val a) (val b) in C.
  assert (SA := sign_val a Fa). assert (SB := sign_val b Fb). revert C. case Rlt_bool_spec; intros HB C.
  - destruct C as (C1 & C2 & _). split; intros H; [apply nonneg_iff|apply nonpos_iff]; left; (split; [exact C2|]); unfold val at 1; cbn [nsub Dnum]; rewrite C1; rewrite <- rd_0; apply rd_le; lra.
  - destruct C as (C1 & C2). apply overflow_inf in C1.
    assert (NZ : val a - val b <> 0).
    { intros Z. rewrite Z, rd_0, Rabs_R0 in HB. assert (P := bpow_gt_0 radix2 1024). lra. }
    split; intros H; [apply nonneg_iff|apply nonpos_iff]; right; cbn [nsub Dnum]; rewrite C1; f_equal;
      destruct (Bsign (a : f64)), (Bsign (b : f64)); try discriminate C2; try reflexivity; exfalso; lra.
Qed.
Lemma div_sign (x d : Dnum) : fin d -> 0 < val d -> (nonneg x -> nonneg (x / d)%num) /\ (nonpos x -> nonpos (x / d)%num).
Proof.
  intros Fd Hd. assert (SD : Bsign (d : f64) = false).
  { destruct d as [b|b| |[|] m e p]; try reflexivity; exfalso; unfold val in Hd; cbn in Hd; try lra; try discriminate Fd.
    assert (F2R (Float radix2 (Z.neg m) e) <= 0) by (apply F2R_le_0; cbn; lia). lra. }
  assert (INF : forall b, ((B754_infinity b : Dnum) / d)%num = B754_infinity b).
  { intros b. destruct d as [c|c| |c m e p]; try discriminate Fd.
    - unfold val in Hd. cbn in Hd. lra.
    - cbn in SD. subst c. cbn. rewrite xorb_false_r. reflexivity. }
  assert (FIN : fin x -> (0 <= val x -> nonneg (x / d)%num) /\ (val x <= 0 -> nonpos (x / d)%num)).
  { intros Fx. assert (C := @Bdiv_correct 53 1024 eq_refl eq_refl mode_NE x d ltac:(fold (val d); lra)).
    change (round radix2 (SpecFloat.fexp 53 1024) (round_mode mode_NE)) with rd in C. fold (val x) (val d) in C.
    assert (SX := sign_val x Fx). assert (PI : 0 < / val d) by (apply Rinv_0_lt_compat; exact Hd). revert C. case Rlt_bool_spec; intros HB C.
    - destruct C as (C1 & C2 & _). rewrite Fx in C2. split; intros H; [apply nonneg_iff|apply nonpos_iff]; left; (split; [exact C2|]); unfold val at 1; cbn [ndiv Dnum]; rewrite C1; rewrite <- rd_0; apply rd_le; unfold Rdiv; nra.
    - apply overflow_inf in C. rewrite SD, xorb_false_r in C.
      assert (NZ : val x <> 0).
      { intros Z. rewrite Z in HB. unfold Rdiv in HB. rewrite Rmult_0_l, rd_0, Rabs_R0 in HB. assert (P := bpow_gt_0 radix2 1024). lra. }
      split; intros H; [apply nonneg_iff|apply nonpos_iff]; right; cbn [ndiv Dnum]; rewrite C; f_equal; destruct (Bsign (x : f64)); try reflexivity; exfalso; lra. }
  split; intros H.
  - apply nonneg_iff in H as [(F & V)| ->]; [apply FIN; assumption|]. rewrite INF. reflexivity.
  - apply nonpos_iff in H as [(F & V)| ->]; [apply FIN; assumption|]. rewrite INF. reflexivity.
Qed.
Lemma min_nonneg (x y : Dnum) : nonneg x -> nonneg y -> nonneg (nmin x y).
Proof. intros A B. unfold nmin. destruct (y <? x)%num; assumption. Qed.
Lemma max_nonpos (x y : Dnum) : nonpos x -> nonpos y -> nonpos (nmax x y).
Proof. intros A B. unfold nmax. destruct (x <? y)%num; assumption. Qed.
Lemma sign_le (x y : Dnum) : nonpos x -> nonneg y -> (x <=? y)%num = true.
Proof.
  intros A B. apply nonpos_iff in A as [(F & V)| ->]; apply nonneg_iff in B as [(G & W)| ->].
  - rewrite d_le by assumption. unfold Rleb. destruct (Rle_dec (val x) (val y)); [reflexivity|lra].
  - cbn [nleb Dnum]. destruct x as [[|]|[|]| |[|] m e p]; try discriminate F; reflexivity.
  - cbn [nleb Dnum]. destruct y as [[|]|[|]| |[|] m e p]; try discriminate G; reflexivity.
  - reflexivity.
Qed.
(** Within the velocity limits the computed interval contains 0, whatever rounding and
    overflow do. *)
Theorem jbd_feasible name nv na (s s' : jb Dnum) v i : (na <= nv)%nat -> jmade name nv na s ->
  jb_step s (JCompute v) = Ret s' tt -> (i < na)%nat ->
  let vi := last_of na v i in
  let lo := vget (b_vlb s) i in let up := vget (b_vub s) i in
  let al := vget (b_alb s) i in let au := vget (b_aub s) i in
  let l := vget (c_lb (b_c s')) (nv - na + i) in let u := vget (c_ub (b_c s')) (nv - na + i) in
  fin lo -> fin up -> fin vi -> fin (b_dt s) -> val lo <= val vi <= val up -> nonpos al -> nonneg au ->
  (l <=? n0)%num = true /\ (n0 <=? u)%num = true /\ (l <=? u)%num = true.
Proof.
  intros Hn Hm E Hi vi lo up al au l u Flo Fup Fv Fh (H1 & H2) Hal Hau.
  destruct (jmade_inv name nv na s Hn Hm) as (I1 & I2 & I3 & _).
  assert (Hd : 0 < val (b_dt s)).
  { rewrite d_lt in I3 by (assumption || reflexivity). unfold Rltb in I3. change (val n0) with 0 in I3. destruct (Rlt_dec 0 (val (b_dt s))); [assumption|discriminate]. }
  assert (Hv : (na <= vlen v)%nat).
  { cbn [jb_step] in E. destruct (jb_compute s v) eqn:EC; [|discriminate]. rewrite <- I1. exact (jb_compute_inv _ _ _ EC). }
  destruct (jb_computes name nv na s v Hn Hm Hv) as (s2 & E2 & R & _). rewrite E2 in E. injection E as <-.
  destruct R as (_ & _ & _ & _ & _ & _ & R). rewrite I1, I2 in R. destruct (R i Hi) as (RL & RU).
  fold vi lo al in RL. fold vi up au in RU. unfold l, u. rewrite RL, RU.
  assert (A : nonpos (nmax ((lo - vi) / b_dt s)%num al)).
  { apply max_nonpos; [|exact Hal]. apply div_sign; try assumption. apply sub_sign; assumption. }
  assert (B : nonneg (nmin ((up - vi) / b_dt s)%num au)).
  { apply min_nonneg; [|exact Hau]. apply div_sign; try assumption. apply sub_sign; assumption. }
  split; [exact A|]. split; [exact B|]. apply sign_le; assumption.
Qed.
(** A velocity that is not a number makes both bounds NaN: the acceleration limits are lost. *)
Lemma nan_sub (a b : Dnum) : is_nan (b : f64) = true -> is_nan ((a - b)%num : f64) = true.
Proof. destruct b; try discriminate. intros _. destruct a as [| | |]; reflexivity. Qed.
Lemma nan_div (a b : Dnum) : is_nan (a : f64) = true -> is_nan ((a / b)%num : f64) = true.
Proof. destruct a; try discriminate. intros _. destruct b as [| | |]; reflexivity. Qed.
Lemma nan_lt (a b : Dnum) : is_nan (a : f64) = true -> (a <? b)%num = false /\ (b <? a)%num = false.
Proof. destruct a; try discriminate. intros _. split; destruct b as [[|]|[|]| |[|] ? ? ?]; reflexivity. Qed.
Theorem jbd_nan name nv na (s s' : jb Dnum) v i : (na <= nv)%nat -> jmade name nv na s ->
  jb_step s (JCompute v) = Ret s' tt -> (i < na)%nat -> is_nan (last_of na v i : f64) = true ->
  is_nan (vget (c_lb (b_c s')) (nv - na + i) : f64) = true /\ is_nan (vget (c_ub (b_c s')) (nv - na + i) : f64) = true.
Proof.
  intros Hn Hm E Hi N. destruct (jmade_inv name nv na s Hn Hm) as (I1 & I2 & _).
  assert (Hv : (na <= vlen v)%nat).
  { cbn [jb_step] in E. destruct (jb_compute s v) eqn:EC; [|discriminate]. rewrite <- I1. exact (jb_compute_inv _ _ _ EC). }
  destruct (jb_computes name nv na s v Hn Hm Hv) as (s2 & E2 & R & _). rewrite E2 in E. injection E as <-.
  destruct R as (_ & _ & _ & _ & _ & _ & R). rewrite I1, I2 in R. destruct (R i Hi) as (RL & RU). rewrite RL, RU.
  assert (Q : forall a : Dnum, is_nan (((a - last_of na v i) / b_dt s)%num : f64) = true) by (intros a; apply nan_div, nan_sub; exact N).
  unfold nmax, nmin. destruct (nan_lt _ (vget (b_alb s) i) (Q (vget (b_vlb s) i))) as (-> & _).
  destruct (nan_lt _ (vget (b_aub s) i) (Q (vget (b_vub s) i))) as (_ & ->). split; apply Q.
Qed.
