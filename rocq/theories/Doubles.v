(** IEEE binary64 as an instance of the scalars of the model.

    [Dnum] is the arithmetic the library is compiled to: double with rounding to nearest,
    infinities and NaN (Flocq's binary64; all NaN are identified).  Not covered: fused
    multiply-add contractions and extended precision. *)
From Coq Require Import ZArith QArith Reals Lia Lra Bool.
From Flocq Require Import Core BinarySingleNaN Relative Plus_error.
From Verif Require Import Scalar FloatUtils.
Open Scope R_scope.

(** Conversion of an integer, correctly rounded. *)
Definition dofZ (z : Z) : f64 := binary_normalize 53 1024 eq_refl eq_refl mode_NE z 0 false.
(** Decimal literals of the sources: exact when numerator and denominator are exactly
    representable. *)
Definition dofQ (q : Q) : f64 := @Bdiv 53 1024 eq_refl eq_refl mode_NE (dofZ (QArith_base.Qnum q)) (dofZ (Zpos (Qden q))).
Definition Dnum : num := {|
  car := f64; n0 := B754_zero false; n1 := @Bone 53 1024 eq_refl eq_refl;
  nadd := @Bplus 53 1024 eq_refl eq_refl mode_NE;
  nsub := @Bminus 53 1024 eq_refl eq_refl mode_NE;
  nmul := @Bmult 53 1024 eq_refl eq_refl mode_NE;
  ndiv := @Bdiv 53 1024 eq_refl eq_refl mode_NE;
  nopp := @Bopp 53 1024;
  nleb := @Bleb 53 1024; nltb := @Bltb 53 1024; neqb := @Beqb 53 1024;
  nofQ := dofQ |}.

(** Real value and finiteness of a double. *)
Definition val (x : Dnum) : R := B2R (x : f64).
Definition fin (x : Dnum) : Prop := is_finite (x : f64) = true.
(** Unit roundoff 2^-53 and half of the smallest positive double. *)
Definition uro : R := / 2 * bpow radix2 (- 53 + 1).
Definition eta : R := / 2 * bpow radix2 (-1074).
(** Half of the overflow threshold. *)
Definition top : R := bpow radix2 1023.

Notation rd := (round radix2 (FLT_exp (-1074) 53) (round_mode mode_NE)).
#[global] Instance prec53 : Prec_gt_0 53 := eq_refl.
#[global] Instance lt53 : Prec_lt_emax 53 1024 := eq_refl.
Lemma uro_pos : 0 < uro.
Proof. unfold uro. apply Rmult_lt_0_compat; [lra|apply bpow_gt_0]. Qed.
Lemma uro_small : uro <= / 1000000.
Proof.
  unfold uro. change (bpow radix2 (-53 + 1)) with (/ IZR (Z.pow_pos 2 52)). rewrite <- Rinv_mult.
  apply Rinv_le_contravar; [lra|]. rewrite <- mult_IZR. apply IZR_le. vm_compute. discriminate.
Qed.
Lemma eta_pos : 0 < eta.
Proof. unfold eta. apply Rmult_lt_0_compat; [lra|apply bpow_gt_0]. Qed.
Lemma val_format (x : Dnum) : generic_format radix2 (FLT_exp (-1074) 53) (val x).
Proof. exact (generic_format_B2R 53 1024 x). Qed.
Lemma rd_top z : Rabs z <= top -> Rabs (rd z) < bpow radix2 1024.
Proof.
  intros H. apply Rle_lt_trans with top; [|apply bpow_lt; lia].
  apply abs_round_le_generic; [apply FLT_exp_valid; reflexivity|apply valid_rnd_N| |exact H].
  apply generic_format_FLT_bpow; [reflexivity|lia].
Qed.
(** Rounding error of any number. *)
Lemma rd_error z : exists e t, Rabs e <= uro /\ Rabs t <= eta /\ rd z = z * (1 + e) + t.
Proof.
  destruct (Rle_or_lt (bpow radix2 (-1074 + 53 - 1)) (Rabs z)) as [H|H].
  - destruct (relative_error_N_FLT_ex radix2 (-1074) 53 eq_refl (fun x => negb (Z.even x)) z H) as (e & He & E).
    exists e, 0. split; [exact He|]. split; [rewrite Rabs_R0; left; apply eta_pos|]. rewrite Rplus_0_r. exact E.
  - exists 0, (rd z - z). split; [rewrite Rabs_R0; left; apply uro_pos|]. split; [|lra].
    eapply Rle_trans; [apply error_le_half_ulp; apply FLT_exp_valid; reflexivity|]. unfold eta. apply Rmult_le_compat_l; [lra|].
    rewrite ulp_FLT_small; [apply Rle_refl|reflexivity|]. eapply Rlt_trans; [exact H|]. apply bpow_lt. lia.
Qed.

(** * Operations on finite doubles away from overflow *)
Lemma uro_div e : Rabs e <= u_ro radix2 53 / (1 + u_ro radix2 53) -> Rabs e <= uro.
Proof.
  change (u_ro radix2 53) with uro. intros H. assert (P := uro_pos). eapply Rle_trans; [exact H|].
  apply Rmult_le_reg_r with (1 + uro); [lra|]. unfold Rdiv. rewrite Rmult_assoc, Rinv_l by lra. nra.
Qed.
Lemma d_add (x y : Dnum) : fin x -> fin y -> Rabs (val x + val y) <= top ->
  fin (x + y)%num /\ val (x + y)%num = rd (val x + val y) /\ exists e, Rabs e <= uro /\ val (x + y)%num = (val x + val y) * (1 + e).
Proof.
  intros Fx Fy H. assert (C := @Bplus_correct 53 1024 eq_refl eq_refl mode_NE x y Fx Fy).
  change (round radix2 (SpecFloat.fexp 53 1024) (round_mode mode_NE)) with rd in C. fold (val x) (val y) in C.
  rewrite Rlt_bool_true in C by (apply rd_top; exact H). destruct C as (C1 & C2 & _). split; [exact C2|].
  unfold val at 1 4. cbn [nadd Dnum]. split; [exact C1|]. destruct (FLT_plus_error_N_ex radix2 (-1074) 53 (fun x => negb (Z.even x)) (val x) (val y) (val_format x) (val_format y)) as (e & He & E).
  exists e. split; [|rewrite C1; exact E]. apply uro_div. exact He.
Qed.
Lemma d_opp (x : Dnum) : val (- x)%num = - val x /\ (fin x -> fin (- x)%num).
Proof. split; [apply B2R_Bopp|]. intros H. unfold fin. cbn [nopp Dnum]. rewrite is_finite_Bopp. exact H. Qed.
Lemma d_sub (x y : Dnum) : fin x -> fin y -> Rabs (val x - val y) <= top ->
  fin (x - y)%num /\ val (x - y)%num = rd (val x - val y) /\ exists e, Rabs e <= uro /\ val (x - y)%num = (val x - val y) * (1 + e).
Proof.
  intros Fx Fy H. assert (C := @Bminus_correct 53 1024 eq_refl eq_refl mode_NE x y Fx Fy).
  change (round radix2 (SpecFloat.fexp 53 1024) (round_mode mode_NE)) with rd in C. fold (val x) (val y) in C.
  rewrite Rlt_bool_true in C by (apply rd_top; exact H). destruct C as (C1 & C2 & _). split; [exact C2|].
  unfold val at 1 4. cbn [nsub Dnum]. split; [exact C1|].
  destruct (FLT_plus_error_N_ex radix2 (-1074) 53 (fun x => negb (Z.even x)) (val x) (- val y) (val_format x) (generic_format_opp _ _ _ (val_format y))) as (e & He & E).
  exists e. split; [|rewrite C1; exact E]. apply uro_div. exact He.
Qed.
Lemma d_mul (x y : Dnum) : fin x -> fin y -> Rabs (val x * val y) <= top ->
  fin (x * y)%num /\ val (x * y)%num = rd (val x * val y) /\ exists e t, Rabs e <= uro /\ Rabs t <= eta /\ val (x * y)%num = (val x * val y) * (1 + e) + t.
Proof.
  intros Fx Fy H. assert (C := @Bmult_correct 53 1024 eq_refl eq_refl mode_NE x y).
  change (round radix2 (SpecFloat.fexp 53 1024) (round_mode mode_NE)) with rd in C. fold (val x) (val y) in C.
  rewrite Rlt_bool_true in C by (apply rd_top; exact H). destruct C as (C1 & C2 & _). rewrite Fx, Fy in C2. split; [exact C2|].
  unfold val at 1 4. cbn [nmul Dnum]. split; [exact C1|]. rewrite C1. apply rd_error.
Qed.
Lemma d_div (x y : Dnum) : fin x -> val y <> 0 -> Rabs (val x / val y) <= top ->
  fin (x / y)%num /\ val (x / y)%num = rd (val x / val y) /\ exists e t, Rabs e <= uro /\ Rabs t <= eta /\ val (x / y)%num = (val x / val y) * (1 + e) + t.
Proof.
  intros Fx Hy H. assert (C := @Bdiv_correct 53 1024 eq_refl eq_refl mode_NE x y Hy).
  change (round radix2 (SpecFloat.fexp 53 1024) (round_mode mode_NE)) with rd in C. fold (val x) (val y) in C.
  rewrite Rlt_bool_true in C by (apply rd_top; exact H). destruct C as (C1 & C2 & _). rewrite Fx in C2. split; [exact C2|].
  unfold val at 1 4. cbn [ndiv Dnum]. split; [exact C1|]. rewrite C1. apply rd_error.
Qed.
Lemma rd_le a b : a <= b -> rd a <= rd b.
Proof. apply round_le; [apply FLT_exp_valid; reflexivity|apply valid_rnd_N]. Qed.
Lemma rd_0 : rd 0 = 0.
Proof. apply round_0, valid_rnd_N. Qed.
Lemma rd_val (x : Dnum) : rd (val x) = val x.
Proof. apply round_generic; [apply valid_rnd_N|apply val_format]. Qed.

(** * Comparisons of finite doubles; every comparison with NaN is false *)
Lemma d_lt (x y : Dnum) : fin x -> fin y -> (x <? y)%num = Rltb (val x) (val y).
Proof.
  intros Fx Fy. cbn [nltb Dnum]. rewrite (@Bltb_correct 53 1024 x y Fx Fy). fold (val x) (val y). unfold Rltb.
  destruct (Rlt_dec (val x) (val y)); [apply Rlt_bool_true|apply Rlt_bool_false]; lra.
Qed.
Lemma d_le (x y : Dnum) : fin x -> fin y -> (x <=? y)%num = Rleb (val x) (val y).
Proof.
  intros Fx Fy. cbn [nleb Dnum]. rewrite (@Bleb_correct 53 1024 x y Fx Fy). fold (val x) (val y). unfold Rleb.
  destruct (Rle_dec (val x) (val y)); [apply Rle_bool_true|apply Rle_bool_false]; lra.
Qed.
Lemma d_eq (x y : Dnum) : fin x -> fin y -> (x =? y)%num = Reqb (val x) (val y).
Proof.
  intros Fx Fy. cbn [neqb Dnum]. rewrite (@Beqb_correct 53 1024 x y Fx Fy). fold (val x) (val y). unfold Reqb.
  destruct (Req_EM_T (val x) (val y)); [apply Req_bool_true|apply Req_bool_false]; assumption.
Qed.
Lemma d_max (x y : Dnum) : fin x -> fin y -> fin (nmax x y) /\ val (nmax x y) = Rmax (val x) (val y).
Proof.
  intros Fx Fy. unfold nmax. rewrite d_lt by assumption. unfold Rltb. destruct (Rlt_dec (val x) (val y)); (split; [assumption|]).
  - rewrite Rmax_right; lra.
  - rewrite Rmax_left; lra.
Qed.
Lemma d_min (x y : Dnum) : fin x -> fin y -> fin (nmin x y) /\ val (nmin x y) = Rmin (val x) (val y).
Proof.
  intros Fx Fy. unfold nmin. rewrite d_lt by assumption. unfold Rltb. destruct (Rlt_dec (val y) (val x)); (split; [assumption|]).
  - rewrite Rmin_right; lra.
  - rewrite Rmin_left; lra.
Qed.
Lemma d_irrefl (x : Dnum) : (x <? x)%num = false.
Proof. cbn [nltb Dnum]. destruct x as [b|b| |b m e p]; try reflexivity; try (destruct b; reflexivity). destruct b; unfold Bltb, SpecFloat.SFltb; cbn; rewrite Z.compare_refl, ?Pos.compare_refl, ?Pos.compare_cont_refl; reflexivity. Qed.
