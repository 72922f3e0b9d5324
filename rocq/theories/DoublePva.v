(** TaskJointPosVelAccBounds in double arithmetic. *)
From Coq Require Import String List Arith Bool ZArith QArith Reals Lia Lra Psatz.
From Flocq Require Import Core BinarySingleNaN Relative.
From Verif Require Import Scalar FloatUtils Doubles Outcome Linalg Constraint Masks JointBounds JointTask JointPva DoubleJoints.
Open Scope R_scope.

(** * Motion with constant acceleration, over the reals *)
Lemma rise_away v a d h t sl : 0 < h -> v <= 0 -> 0 <= d -> 0 <= sl -> h * h / 2 * a <= d - h * v + sl -> 0 <= t <= h -> v * t + a * (t * t) / 2 <= d + sl.
Proof.
  intros Hh Hv Hd Hs Ha Ht. destruct (Rle_or_lt (v + a * t / 2) 0) as [H|H]; [nra|].
  assert (0 < a) by nra. assert (v + a * t / 2 <= v + a * h / 2) by nra.
  assert (t * (v + a * t / 2) <= h * (v + a * h / 2)) by (apply Rmult_le_compat; nra). nra.
Qed.
Lemma rise_slow v a m d h t sl r : 0 < h -> 0 <= v -> 0 <= sl -> 0 <= r -> a <= m -> Rabs (h * h / 2 * m - (d - h * v)) <= sl ->
  - (v + r) <= h * m -> 0 <= t <= h -> v * t + a * (t * t) / 2 <= d + sl + h * r / 2.
Proof.
  intros Hh Hv Hs Hr Ha Hm Hst Ht. apply Rabs_le_inv in Hm. destruct (Rle_or_lt 0 (v + a * h)) as [H|H].
  - assert (0 <= (h - t) * (v + a * (t + h) / 2)).
    { apply Rmult_le_pos; [lra|]. destruct (Rle_or_lt 0 a); nra. }
    assert (h * h / 2 * a <= h * h / 2 * m) by (apply Rmult_le_compat_l; nra). nra.
  - assert (v * t + a * (t * t) / 2 <= h * v / 2).
    { assert (a * (t * t) * h <= - v * (t * t)) by nra. assert (0 <= v * ((h - t) * (h - t))) by (apply Rmult_le_pos; nra).
      apply Rmult_le_reg_r with h; [exact Hh|]. nra. }
    assert (h * (h * m) >= h * - (v + r)) by (apply Rle_ge, Rmult_le_compat_l; lra). lra.
Qed.
Lemma rise_brake v a d t : 0 < d -> v * v <= 2 * d * - a -> v * t + a * (t * t) / 2 <= d.
Proof.
  intros Hd Ha. assert (H := Rle_0_sqr (2 * d - v * t)). unfold Rsqr in H.
  assert (v * v * (t * t) <= 2 * d * - a * (t * t)) by (apply Rmult_le_compat_r; [nra|exact Ha]). nra.
Qed.

(** * Doubles away from underflow *)
Lemma rd_rel z : bpow radix2 (-1022) <= Rabs z -> exists e, Rabs e <= uro /\ rd z = z * (1 + e).
Proof. intros H. destruct (relative_error_N_FLT_ex radix2 (-1074) 53 eq_refl (fun x => negb (Z.even x)) z H) as (e & He & E). exists e. split; [exact He|exact E]. Qed.
Lemma val_SF (x : Dnum) : val x = SF2R radix2 (B2SF (x : f64)).
Proof. symmetry. apply SF2R_B2SF. Qed.
Lemma val_two : val (@two Dnum) = 2.
Proof. rewrite val_SF. replace (B2SF (@two Dnum : f64)) with (SpecFloat.S754_finite false 4503599627370496 (-51)) by (vm_compute; reflexivity). unfold SF2R, F2R. cbn. lra. Qed.
Lemma fin_two : fin (@two Dnum).
Proof. vm_compute. reflexivity. Qed.
(** Magnitudes for which nothing below overflows. *)
Definition mild (x : Dnum) : Prop := fin x /\ Rabs (val x) <= bpow radix2 200.
Definition step_ok (h : Dnum) : Prop := fin h /\ bpow radix2 (-100) <= val h <= bpow radix2 100.
Lemma prod1 x y a b : Rabs x <= a -> Rabs y <= b -> exists z, (1 + x) * (1 + y) = 1 + z /\ Rabs z <= a + b + a * b.
Proof.
  intros A B. exists (x + y + x * y). split; [ring|]. eapply Rle_trans; [apply Rabs_triang|]. apply Rplus_le_compat.
  - eapply Rle_trans; [apply Rabs_triang|]. lra.
  - rewrite Rabs_mult. apply Rmult_le_compat; try apply Rabs_pos; assumption.
Qed.
Lemma bpow_double n : bpow radix2 (n + 1) = bpow radix2 n + bpow radix2 n.
Proof. rewrite bpow_plus. change (bpow radix2 1) with 2. ring. Qed.
Lemma grow x e n : Rabs x <= bpow radix2 n -> Rabs e <= 1 -> Rabs (x * (1 + e)) <= bpow radix2 (n + 1).
Proof.
  intros A B. rewrite bpow_plus, Rabs_mult. apply Rmult_le_compat; try apply Rabs_pos; [exact A|]. change (bpow radix2 1) with 2.
  eapply Rle_trans; [apply Rabs_triang|]. rewrite Rabs_R1. lra.
Qed.
Lemma eta_le n : (-1075 <= n)%Z -> eta <= bpow radix2 n.
Proof. intros H. unfold eta. change (/ 2) with (bpow radix2 (-1)). rewrite <- bpow_plus. apply bpow_le. lia. Qed.
Lemma bp n : 0 < bpow radix2 n. Proof. apply bpow_gt_0. Qed.
Lemma sq_range (h : R) : bpow radix2 (-100) <= h <= bpow radix2 100 -> bpow radix2 (-200) <= h * h <= bpow radix2 200.
Proof.
  intros H. assert (P := bp (-100)). change (-200)%Z with (-100 + -100)%Z. change 200%Z with (100 + 100)%Z. rewrite !bpow_plus. split; apply Rmult_le_compat; lra.
Qed.
Lemma inv_range (x : R) n m : bpow radix2 n <= x <= bpow radix2 m -> bpow radix2 (- m) <= / x <= bpow radix2 (- n).
Proof.
  intros (A & B). assert (P := bp n). rewrite !bpow_opp. split; apply Rinv_le_contravar; try assumption; lra.
Qed.
(** m_two_dt_sq. *)
Lemma tds_val (h : Dnum) : step_ok h -> exists e, Rabs e <= 3 * uro /\ fin (two / (h * h))%num /\
  val (two / (h * h))%num = 2 / (val h * val h) * (1 + e) /\ Rabs (val (two / (h * h))%num) <= bpow radix2 202.
Proof.
  intros (Fh & Hh). assert (U := uro_pos). assert (U2 := uro_small). assert (S := sq_range _ Hh). assert (P2 := bp (-200)).
  destruct (d_mul h h Fh Fh) as (F1 & V1 & _).
  { rewrite Rabs_pos_eq by lra. eapply Rle_trans; [apply S|]. apply bpow_le. lia. }
  destruct (rd_rel (val h * val h)) as (e5 & H5 & E5).
  { rewrite Rabs_pos_eq by lra. eapply Rle_trans; [|apply S]. apply bpow_le. lia. }
  rewrite E5 in V1. set (hh := val h * val h) in *. clearbody hh. apply Rabs_le_inv in H5 as H5'.
  assert (I := inv_range hh _ _ S). assert (PI := bp (-200)).
  assert (J : / 2 <= / (1 + e5) <= 2).
  { split; [apply Rinv_le_contravar; lra|]. replace 2 with (/ / 2) by (field; lra). apply Rinv_le_contravar; lra. }
  assert (Q : val two / val (h * h)%num = 2 * / hh * / (1 + e5)) by (rewrite val_two, V1; field; lra).
  assert (R1 : bpow radix2 (-200) <= 2 * / hh * / (1 + e5) <= bpow radix2 202).
  { change (- (200))%Z with (-200)%Z in I. change (- (-200))%Z with 200%Z in I. change 202%Z with (200 + 2)%Z. rewrite (bpow_plus radix2 200 2). change (bpow radix2 2) with 4. split; nra. }
  destruct (d_div two (h * h)%num fin_two) as (F2 & V2 & _).
  { rewrite V1. assert (0 < hh * (1 + e5)) by (apply Rmult_lt_0_compat; lra). lra. }
  { rewrite Q, Rabs_pos_eq by lra. eapply Rle_trans; [apply R1|]. apply bpow_le. lia. }
  rewrite Q in V2. destruct (rd_rel (2 * / hh * / (1 + e5))) as (e4 & H4 & E4).
  { rewrite Rabs_pos_eq by lra. eapply Rle_trans; [|apply R1]. apply bpow_le. lia. }
  exists ((e4 - e5) * / (1 + e5)). apply Rabs_le_inv in H4 as H4'. split; [|split; [exact F2|split]].
  - rewrite Rabs_mult, (Rabs_pos_eq (/ (1 + e5))) by lra. assert (Rabs (e4 - e5) <= 2 * uro) by (apply Rabs_le; lra).
    assert (/ (1 + e5) <= 3 / 2). { replace (3 / 2) with (/ (2 / 3)) by (field; lra). apply Rinv_le_contravar; lra. }
    apply Rle_trans with (2 * uro * (3 / 2)); [|lra]. apply Rmult_le_compat; try apply Rabs_pos; lra.
  - rewrite V2, E4. field. lra.
  - rewrite V2. change 202%Z with (202)%Z. apply abs_round_le_generic; [apply FLT_exp_valid; reflexivity|apply valid_rnd_N| |].
    + apply generic_format_FLT_bpow; [reflexivity|lia].
    + rewrite Rabs_pos_eq by lra. apply R1.
Qed.
(** The acceleration which brings the joint to [l] at the end of the step. *)
Definition reach_acc (h T l q v : Dnum) : Dnum := (T * (l - q - h * v))%num.
Definition rslack (d w : R) : R := 7 * uro * (Rabs d + Rabs w) + bpow radix2 (-300).
Lemma reach_val (h l q v : Dnum) : step_ok h -> mild l -> mild q -> mild v ->
  let M := reach_acc h (two / (h * h))%num l q v in
  fin M /\ Rabs (val h * val h / 2 * val M - (val l - val q - val h * val v)) <= rslack (val l - val q) (val h * val v).
Proof.
  intros Sh (Fl & Ml) (Fq & Mq) (Fv & Mv). cbn zeta. unfold reach_acc. assert (Sh' := Sh). destruct Sh' as (Fh & Hh). assert (U := uro_pos). assert (U2 := uro_small).
  assert (P1 := bp (-100)). assert (SQ := sq_range _ Hh). destruct (tds_val h Sh) as (eT & HT & FT & VT & BT).
  set (T := (two / (h * h))%num) in *.
  assert (MD : Rabs (val l - val q) <= bpow radix2 201).
  { change 201%Z with (200 + 1)%Z. rewrite bpow_double. eapply Rle_trans; [apply Rabs_triang|]. rewrite Rabs_Ropp. lra. }
  assert (MW : Rabs (val h * val v) <= bpow radix2 300).
  { change 300%Z with (100 + 200)%Z. rewrite bpow_plus, Rabs_mult. apply Rmult_le_compat; try apply Rabs_pos; [rewrite Rabs_pos_eq by lra; lra|exact Mv]. }
  destruct (d_sub l q Fl Fq) as (FD & _ & e1 & H1 & E1); [eapply Rle_trans; [exact MD|apply bpow_le; lia]|].
  destruct (d_mul h v Fh Fv) as (FW & _ & e2 & t2 & H2 & Ht2 & E2); [eapply Rle_trans; [exact MW|apply bpow_le; lia]|].
  assert (BD : Rabs (val (l - q)%num) <= bpow radix2 202) by (rewrite E1; apply (grow _ _ 201); [exact MD|lra]).
  assert (BW : Rabs (val (h * v)%num) <= bpow radix2 302).
  { rewrite E2. change 302%Z with (301 + 1)%Z. rewrite bpow_double. eapply Rle_trans; [apply Rabs_triang|]. apply Rplus_le_compat.
    - apply (grow _ _ 300); [exact MW|lra].
    - eapply Rle_trans; [exact Ht2|]. apply eta_le. lia. }
  assert (BX : Rabs (val (l - q)%num - val (h * v)%num) <= bpow radix2 303).
  { change 303%Z with (302 + 1)%Z. rewrite bpow_double. eapply Rle_trans; [apply Rabs_triang|]. rewrite Rabs_Ropp. apply Rplus_le_compat; [|exact BW].
    eapply Rle_trans; [exact BD|]. apply bpow_le. lia. }
  destruct (d_sub (l - q)%num (h * v)%num FD FW) as (FX & _ & e3 & H3 & E3); [eapply Rle_trans; [exact BX|apply bpow_le; lia]|].
  set (X := (l - q - h * v)%num) in *.
  assert (BX2 : Rabs (val X) <= bpow radix2 304) by (rewrite E3; apply (grow _ _ 303); [exact BX|lra]).
  destruct (d_mul T X FT FX) as (FM & _ & e6 & t6 & H6 & Ht6 & E6).
  { rewrite Rabs_mult. apply Rle_trans with (bpow radix2 202 * bpow radix2 304); [apply Rmult_le_compat; try apply Rabs_pos; assumption|].
    rewrite <- bpow_plus. apply bpow_le. lia. }
  split; [exact FM|]. rewrite E6, VT, E3, E1, E2. set (d := val l - val q). set (w := val h * val v). set (k := val h * val h) in *.
  assert (Pk : 0 < k) by (assert (P2 := bp (-200)); lra).
  destruct (prod1 e3 e6 _ _ H3 H6) as (g1 & G1 & B1). destruct (prod1 g1 eT _ _ B1 HT) as (g & G & BG).
  destruct (prod1 e1 g _ _ H1 BG) as (gd & Gd & BGd). destruct (prod1 e2 g _ _ H2 BG) as (gw & Gw & BGw).
  assert (UU : uro * uro <= uro / 1000000) by nra. assert (0 < uro * uro) by nra.
  assert (C1 : uro + uro + uro * uro <= 2 * uro + uro / 1000000) by lra.
  assert (C2 : Rabs g <= 51 / 10 * uro) by nra. assert (C3 : Rabs gd <= 7 * uro) by nra. assert (C4 : Rabs gw <= 7 * uro) by nra.
  replace (k / 2 * (2 / k * (1 + eT) * ((d * (1 + e1) - (w * (1 + e2) + t2)) * (1 + e3)) * (1 + e6) + t6) - (d - w))
    with (d * gd - w * gw - t2 * (1 + g) + k / 2 * t6).
  2:{ assert (EG : (1 + e3) * (1 + e6) * (1 + eT) = 1 + g) by (rewrite G1; exact G).
      assert (Ed : (1 + e1) * ((1 + e3) * (1 + e6) * (1 + eT)) = 1 + gd) by (rewrite EG; exact Gd).
      assert (Ew : (1 + e2) * ((1 + e3) * (1 + e6) * (1 + eT)) = 1 + gw) by (rewrite EG; exact Gw).
      replace (k / 2 * (2 / k * (1 + eT) * ((d * (1 + e1) - (w * (1 + e2) + t2)) * (1 + e3)) * (1 + e6) + t6))
        with (d * ((1 + e1) * ((1 + e3) * (1 + e6) * (1 + eT))) - w * ((1 + e2) * ((1 + e3) * (1 + e6) * (1 + eT))) - t2 * ((1 + e3) * (1 + e6) * (1 + eT)) + k / 2 * t6) by (field; lra).
      rewrite Ed, Ew, EG. ring. }
  unfold rslack. fold d w.
  assert (A1 : Rabs (d * gd) <= 7 * uro * Rabs d) by (rewrite Rabs_mult, Rmult_comm; apply Rmult_le_compat_r; [apply Rabs_pos|exact C3]).
  assert (A2 : Rabs (w * gw) <= 7 * uro * Rabs w) by (rewrite Rabs_mult, Rmult_comm; apply Rmult_le_compat_r; [apply Rabs_pos|exact C4]).
  assert (A3 : Rabs (t2 * (1 + g)) <= bpow radix2 (-301)).
  { apply Rle_trans with (bpow radix2 (-302 + 1)); [|apply bpow_le; lia]. apply grow; [|lra]. eapply Rle_trans; [exact Ht2|]. apply eta_le. lia. }
  assert (A4 : Rabs (k / 2 * t6) <= bpow radix2 (-301)).
  { rewrite Rabs_mult, (Rabs_pos_eq (k / 2)) by lra. apply Rle_trans with (bpow radix2 200 * bpow radix2 (-600)).
    - apply Rmult_le_compat; try apply Rabs_pos; try lra. eapply Rle_trans; [exact Ht6|]. apply eta_le. lia.
    - rewrite <- bpow_plus. apply bpow_le. lia. }
  assert (A5 : bpow radix2 (-300) = bpow radix2 (-301) + bpow radix2 (-301)) by (change (-300)%Z with (-301 + 1)%Z; apply bpow_double).
  apply Rabs_le_inv in A1, A2, A3, A4. apply Rabs_le. lra.
Qed.
(** The acceleration which stops the joint at the end of the step. *)
Lemma stop_val (h v : Dnum) : step_ok h -> mild v -> let st := (- v / h)%num in
  fin st /\ Rabs (val h * val st + val v) <= uro * Rabs (val v) + val h * eta /\ (0 <= val v -> val st <= 0) /\ (val v <= 0 -> 0 <= val st).
Proof.
  intros (Fh & Hh) (Fv & Mv). cbn zeta. assert (P1 := bp (-100)). destruct (d_opp v) as (V1 & F1). specialize (F1 Fv).
  assert (PI : 0 < / val h) by (apply Rinv_0_lt_compat; lra).
  destruct (d_div (- v)%num h F1) as (F2 & V2 & e & t & He & Ht & E); [lra| |].
  { rewrite V1. apply quot_top; [|eapply Rle_trans; [|apply Hh]; apply bpow_le; lia]. rewrite Rabs_Ropp. eapply Rle_trans; [exact Mv|]. apply bpow_le. lia. }
  rewrite V1 in V2, E. split; [exact F2|]. split; [|split].
  - rewrite E. replace (val h * (- val v / val h * (1 + e) + t) + val v) with (- (val v * e) + val h * t) by (field; lra).
    eapply Rle_trans; [apply Rabs_triang|]. rewrite Rabs_Ropp, !Rabs_mult, (Rabs_pos_eq (val h)) by lra. apply Rplus_le_compat.
    + rewrite Rmult_comm. apply Rmult_le_compat_r; [apply Rabs_pos|exact He].
    + apply Rmult_le_compat_l; [lra|exact Ht].
  - intros H. rewrite V2, <- rd_0. apply rd_le. unfold Rdiv. nra.
  - intros H. rewrite V2, <- rd_0. apply rd_le. unfold Rdiv. nra.
Qed.
(** The deceleration which stops the joint after the distance [x1 - x2]. *)
Lemma brake_val (v x1 x2 y : Dnum) : mild v -> mild x1 -> mild x2 -> bpow radix2 (-300) <= val x1 - val x2 ->
  fin y -> Rabs (val y) = Rabs (val (v * v)%num) ->
  let B := (y / (two * (x1 - x2)))%num in
  fin B /\ (bpow radix2 (-400) <= Rabs (val v) -> val v * val v <= 2 * ((val x1 - val x2) * (1 + 7 * uro)) * Rabs (val B)) /\
  (val y <= 0 -> val B <= 0) /\ (0 <= val y -> 0 <= val B).
Proof.
  intros (Fv & Mv) (F1 & M1) (F2 & M2) Hd Fy Ey. cbn zeta. assert (U := uro_pos). assert (U2 := uro_small).
  assert (P3 := bp (-300)). assert (P4 := bp (-400)). set (d := val x1 - val x2) in *.
  assert (S0 : 0 <= val v * val v) by (assert (V := Rle_0_sqr (val v)); exact V).
  assert (SQ : val v * val v <= bpow radix2 400).
  { rewrite <- (Rabs_pos_eq (val v * val v)) by exact S0. rewrite Rabs_mult. change 400%Z with (200 + 200)%Z. rewrite !bpow_plus.
    apply Rmult_le_compat; try apply Rabs_pos; lra. }
  destruct (d_mul v v Fv Fv) as (FS & VS & _); [rewrite Rabs_pos_eq by lra; eapply Rle_trans; [apply SQ|apply bpow_le; lia]|].
  assert (YB : Rabs (val y) <= bpow radix2 400).
  { rewrite Ey, VS. apply abs_round_le_generic; [apply FLT_exp_valid; reflexivity|apply valid_rnd_N| |rewrite Rabs_pos_eq by lra; exact SQ]. apply generic_format_FLT_bpow; [reflexivity|lia]. }
  assert (MD : Rabs d <= bpow radix2 201).
  { change 201%Z with (200 + 1)%Z. rewrite bpow_double. unfold d. eapply Rle_trans; [apply Rabs_triang|]. rewrite Rabs_Ropp. lra. }
  rewrite Rabs_pos_eq in MD by lra.
  destruct (d_sub x1 x2 F1 F2) as (FD & _ & b & Hb & Eb); [fold d; rewrite Rabs_pos_eq by lra; eapply Rle_trans; [exact MD|apply bpow_le; lia]|]. fold d in Eb.
  apply Rabs_le_inv in Hb as Hb'.
  assert (D1 : bpow radix2 (-300) <= 2 * (d * (1 + b)) <= bpow radix2 203).
  { change 203%Z with (201 + 2)%Z. rewrite (bpow_plus radix2 201 2). change (bpow radix2 2) with 4. split; nra. }
  destruct (d_mul two (x1 - x2)%num fin_two FD) as (F2D & V2D & _).
  { rewrite val_two, Eb, Rabs_pos_eq by lra. eapply Rle_trans; [apply D1|]. apply bpow_le. lia. }
  rewrite val_two, Eb in V2D. destruct (rd_rel (2 * (d * (1 + b)))) as (c & Hc & Ec).
  { rewrite Rabs_pos_eq by lra. eapply Rle_trans; [|apply D1]. apply bpow_le. lia. }
  rewrite Ec in V2D. apply Rabs_le_inv in Hc as Hc'. set (z := val (two * (x1 - x2))%num) in *.
  assert (PZ : bpow radix2 (-301) <= z <= bpow radix2 204).
  { rewrite V2D. assert (A5 : bpow radix2 (-300) = bpow radix2 (-301) + bpow radix2 (-301)) by (change (-300)%Z with (-301 + 1)%Z; apply bpow_double).
    assert (A6 : bpow radix2 204 = bpow radix2 203 + bpow radix2 203) by (change 204%Z with (203 + 1)%Z; apply bpow_double). assert (P9 := bp (-301)). split; nra. }
  assert (IZ := inv_range z _ _ PZ). change (- (-301))%Z with 301%Z in IZ. change (- (204))%Z with (-204)%Z in IZ. assert (P9 := bp (-301)). assert (P10 := bp (-204)).
  assert (AZ : Rabs (val y / z) = Rabs (val y) * / z) by (unfold Rdiv; rewrite Rabs_mult, (Rabs_pos_eq (/ z)) by lra; reflexivity).
  destruct (d_div y (two * (x1 - x2))%num Fy) as (FB & VB & _); [fold z; lra| |].
  { fold z. rewrite AZ. apply Rle_trans with (bpow radix2 400 * bpow radix2 301); [|rewrite <- bpow_plus; apply bpow_le; lia].
    apply Rmult_le_compat; try apply Rabs_pos; try lra. }
  fold z in VB. split; [exact FB|]. split; [|split; intros H; rewrite VB, <- rd_0; apply rd_le; unfold Rdiv; nra].
  intros Hv. assert (SL : bpow radix2 (-800) <= val v * val v).
  { rewrite <- (Rabs_pos_eq (val v * val v)) by exact S0. rewrite Rabs_mult. change (-800)%Z with (-400 + -400)%Z. rewrite bpow_plus.
    apply Rmult_le_compat; try lra. }
  assert (P8 := bp (-800)).
  destruct (rd_rel (val v * val v)) as (a & Ha & Ea); [rewrite Rabs_pos_eq by lra; eapply Rle_trans; [|apply SL]; apply bpow_le; lia|]. rewrite Ea in VS.
  apply Rabs_le_inv in Ha as Ha'. rewrite VS in Ey. rewrite (Rabs_pos_eq (val v * val v * (1 + a))) in Ey by nra. rewrite Ey in AZ.
  destruct (rd_rel (val y / z)) as (f & Hf & Ef).
  { rewrite AZ. apply Rle_trans with (bpow radix2 (-801) * bpow radix2 (-204)); [rewrite <- bpow_plus; apply bpow_le; lia|]. apply Rmult_le_compat; try (left; apply bp); [|apply IZ].
    assert (A5 : bpow radix2 (-800) = bpow radix2 (-801) + bpow radix2 (-801)) by (change (-800)%Z with (-801 + 1)%Z; apply bpow_double). assert (P := bp (-801)). nra. }
  apply Rabs_le_inv in Hf as Hf'.
  rewrite VB, Ef, Rabs_mult, AZ, (Rabs_pos_eq (1 + f)) by lra. set (s := val v * val v) in *. clearbody s d.
  assert (Hz : z * / z = 1) by (apply Rinv_r; lra).
  assert (KEY : z <= 2 * (d * (1 + 7 * uro)) * (1 + a) * (1 + f)).
  { rewrite V2D. assert (L1 : (1 + b) * (1 + c) <= 1 + 2 * uro + uro * uro) by nra. assert (L2 : 1 - 2 * uro <= (1 + a) * (1 + f)) by nra.
    assert (L3 : 1 + 2 * uro + uro * uro <= (1 + 7 * uro) * (1 - 2 * uro)) by nra. assert (L4 : (1 + b) * (1 + c) <= (1 + 7 * uro) * ((1 + a) * (1 + f))) by nra.
    replace (2 * (d * (1 + b)) * (1 + c)) with (2 * d * ((1 + b) * (1 + c))) by ring.
    replace (2 * (d * (1 + 7 * uro)) * (1 + a) * (1 + f)) with (2 * d * ((1 + 7 * uro) * ((1 + a) * (1 + f)))) by ring. apply Rmult_le_compat_l; [lra|exact L4]. }
  replace (2 * (d * (1 + 7 * uro)) * (s * (1 + a) * / z * (1 + f))) with (s * / z * (2 * (d * (1 + 7 * uro)) * (1 + a) * (1 + f))) by ring.
  apply Rle_trans with (s * / z * z); [right; rewrite Rmult_assoc, (Rmult_comm (/ z)), Hz; ring|]. apply Rmult_le_compat_l; [|exact KEY].
  apply Rmult_le_pos; lra.
Qed.
(** Rounding slack of the position limits. *)
Definition pslack (d w : R) : R := 8 * uro * (Rabs d + Rabs w) + bpow radix2 (-200).
Lemma pslack_pos d w : 0 < pslack d w.
Proof. unfold pslack. assert (U := uro_pos). assert (P := bp (-200)). assert (A := Rabs_pos d). assert (B := Rabs_pos w). nra. Qed.
Lemma fast_case (v h a t : R) d : 0 <= v -> v < bpow radix2 (-400) -> 0 < h <= bpow radix2 100 -> a <= 0 -> 0 <= t <= h -> 0 <= d ->
  v * t + a * (t * t) / 2 <= d + bpow radix2 (-200).
Proof.
  intros Hv Hs Hh Ha Ht Hd. assert (v * t <= bpow radix2 (-400) * bpow radix2 100) by (apply Rmult_le_compat; lra).
  rewrite <- bpow_plus in H. assert (bpow radix2 (-400 + 100) <= bpow radix2 (-200)) by (apply bpow_le; lia). assert (a * (t * t) <= 0) by nra. lra.
Qed.
Lemma room_le d w : rslack d w + uro * Rabs w / 2 + bpow radix2 100 * bpow radix2 100 * eta / 2 <= pslack d w.
Proof.
  unfold rslack, pslack. assert (E := eta_le (-600) ltac:(lia)). assert (U := uro_pos). assert (A := Rabs_pos d). assert (B := Rabs_pos w). assert (P := eta_pos).
  rewrite <- bpow_plus. change (100 + 100)%Z with 200%Z.
  assert (bpow radix2 200 * eta <= bpow radix2 (-400)).
  { change (-400)%Z with (200 + -600)%Z. rewrite bpow_plus. apply Rmult_le_compat_l; [left; apply bp|exact E]. }
  assert (bpow radix2 (-400) <= bpow radix2 (-201)) by (apply bpow_le; lia). assert (bpow radix2 (-300) <= bpow radix2 (-201)) by (apply bpow_le; lia).
  assert (bpow radix2 (-200) = bpow radix2 (-201) + bpow radix2 (-201)) by (change (-200)%Z with (-201 + 1)%Z; apply bpow_double).
  assert (0 <= uro * Rabs d) by (apply Rmult_le_pos; lra). assert (0 <= uro * Rabs w) by (apply Rmult_le_pos; lra). assert (PP := bp (-201)). lra.
Qed.
(** One side, on reals: [d] distance to the limit, [v] velocity towards it, [m], [st], [b]
    the three accelerations computed by the code (towards the limit). *)
Lemma one_side (h v d m st b a t : R) : bpow radix2 (-100) <= h <= bpow radix2 100 -> bpow radix2 (-300) <= d ->
  Rabs (h * h / 2 * m - (d - h * v)) <= rslack d (h * v) -> Rabs (h * st + v) <= uro * Rabs v + h * eta -> (0 <= v -> st <= 0) ->
  (v <= 0 /\ a <= m \/ 0 <= v /\ st < m /\ a <= m \/
   0 <= v /\ a <= b /\ a <= st /\ b <= 0 /\ (bpow radix2 (-400) <= Rabs v -> v * v <= 2 * (d * (1 + 7 * uro)) * Rabs b)) -> 0 <= t <= h ->
  v * t + a * (t * t) / 2 <= d + pslack d (h * v).
Proof.
  intros Hh Hd Hm Hs Ss H Ht. assert (P1 := bp (-100)). assert (P3 := bp (-300)). assert (R := room_le d (h * v)). assert (U := uro_pos). assert (U2 := uro_small).
  assert (ET := eta_pos). assert (Q : 0 <= rslack d (h * v)) by (eapply Rle_trans; [apply Rabs_pos|exact Hm]).
  assert (PB : 0 < bpow radix2 100) by apply bp. assert (0 <= Rabs (h * v)) by apply Rabs_pos.
  assert (HE : h * (h * eta) <= bpow radix2 100 * bpow radix2 100 * eta).
  { rewrite <- Rmult_assoc. apply Rmult_le_compat_r; [lra|]. apply Rmult_le_compat; lra. }
  assert (HE0 : 0 <= h * (h * eta)) by (apply Rmult_le_pos; [lra|apply Rmult_le_pos; lra]).
  assert (UW : 0 <= uro * Rabs (h * v)) by (apply Rmult_le_pos; lra).
  destruct H as [(Hv & Ha)|[(Hv & Hsm & Ha)|(Hv & Hab & Has & B2 & Hb)]].
  - apply Rle_trans with (d + rslack d (h * v)); [|lra]. apply Rabs_le_inv in Hm. apply (rise_away v a d h t); try lra.
    assert (h * h / 2 * a <= h * h / 2 * m) by (apply Rmult_le_compat_l; nra). lra.
  - rewrite (Rabs_pos_eq v Hv) in Hs. rewrite Rabs_mult, (Rabs_pos_eq h), (Rabs_pos_eq v Hv) in R, UW by lra.
    assert (X := rise_slow v a m d h t (rslack d (h * v)) (uro * v + h * eta)).
    assert (h * st <= h * m) by (apply Rmult_le_compat_l; lra). apply Rabs_le_inv in Hs.
    assert (v * t + a * (t * t) / 2 <= d + rslack d (h * v) + h * (uro * v + h * eta) / 2).
    { apply X; try assumption; try lra. }
    replace (h * (uro * v + h * eta) / 2) with (uro * (h * v) / 2 + h * (h * eta) / 2) in * by field. lra.
  - specialize (Ss Hv). destruct (Rlt_or_le v (bpow radix2 (-400))) as [Hl|Hl].
    + eapply Rle_trans; [apply (fast_case v h a t d); try lra|]. unfold pslack. assert (A := Rabs_pos d). nra.
    + rewrite (Rabs_pos_eq v Hv) in Hb. assert (B1 := Hb Hl). rewrite (Rabs_left1 b B2) in B1.
      assert (X := rise_brake v a (d * (1 + 7 * uro)) t).
      apply Rle_trans with (d * (1 + 7 * uro)).
      * apply X; [nra|]. eapply Rle_trans; [exact B1|]. apply Rmult_le_compat_l; [nra|lra].
      * unfold pslack. rewrite (Rabs_pos_eq d) by lra. assert (P := bp (-200)). nra.
Qed.

(** * computeAccLimitsFromPosLimits in doubles *)
Lemma sq_val (v : Dnum) : mild v -> fin (v * v)%num /\ 0 <= val (v * v)%num.
Proof.
  intros (Fv & Mv). destruct (d_mul v v Fv Fv) as (F & V & _).
  - rewrite Rabs_mult. apply Rle_trans with (bpow radix2 200 * bpow radix2 200); [apply Rmult_le_compat; try apply Rabs_pos; exact Mv|]. rewrite <- bpow_plus. apply bpow_le. lia.
  - split; [exact F|]. rewrite V, <- rd_0. apply rd_le. exact (Rle_0_sqr (val v)).
Qed.
Lemma pos_upper (h qmin qmax q v : Dnum) : step_ok h -> mild qmax -> mild q -> mild v -> bpow radix2 (-300) <= val qmax - val q ->
  let u := snd (pos_lim h (two / (h * h))%num qmin qmax q v) in
  fin u /\ forall a t, a <= val u -> 0 <= t <= val h ->
    val q + val v * t + a * (t * t) / 2 <= val qmax + pslack (val qmax - val q) (val h * val v).
Proof.
  intros Sh Mx Mq Mv Hd. cbn zeta. assert (Hh := proj2 Sh).
  destruct (reach_val h qmax q v Sh Mx Mq Mv) as (FM & VM). unfold reach_acc in FM, VM. destruct (stop_val h v Sh Mv) as (FS & VS & SS & _).
  destruct (sq_val v Mv) as (F2 & V2). destruct (d_opp (v * v)%num) as (VO & FO). specialize (FO F2).
  destruct (brake_val v qmax q (- (v * v))%num Mv Mx Mq Hd FO) as (FB & B1 & B2 & _); [rewrite VO; apply Rabs_Ropp|].
  unfold pos_lim. set (m := (two / (h * h) * (qmax - q - h * v))%num) in *. set (st := (- v / h)%num) in *.
  set (b := (- (v * v) / (two * (qmax - q)))%num) in *. assert (B3 : val b <= 0) by (apply B2; rewrite VO; lra).
  set (d := val qmax - val q) in *.
  assert (G : forall a t, (val v <= 0 /\ a <= val m \/ 0 <= val v /\ val st < val m /\ a <= val m \/
      0 <= val v /\ a <= val b /\ a <= val st /\ val b <= 0 /\ (bpow radix2 (-400) <= Rabs (val v) -> val v * val v <= 2 * (d * (1 + 7 * uro)) * Rabs (val b))) ->
    0 <= t <= val h -> val q + val v * t + a * (t * t) / 2 <= val qmax + pslack d (val h * val v)).
  { intros a t H Ht. assert (X := one_side (val h) (val v) d (val m) (val st) (val b) a t Hh Hd VM VS SS H Ht). unfold d in *. lra. }
  rewrite (d_le v n0 (proj1 Mv) eq_refl). change (val n0) with 0. unfold Rleb.
  destruct (Rle_dec (val v) 0) as [Hv|Hv]; cbn [snd].
  - split; [exact FM|]. intros a t Ha Ht. apply G; [left; split; assumption|exact Ht].
  - rewrite (d_lt st m FS FM). unfold Rltb. destruct (Rlt_dec (val st) (val m)) as [Hs|Hs].
    + split; [exact FM|]. intros a t Ha Ht. apply G; [right; left; repeat split; lra|exact Ht].
    + rewrite (d_eq q qmax (proj1 Mq) (proj1 Mx)). unfold Reqb. assert (P3 := bp (-300)).
      destruct (Req_EM_T (val q) (val qmax)) as [He|He]; [exfalso; unfold d in Hd; lra|]. cbn [negb].
      destruct (d_min b st FB FS) as (FMi & VMi). split; [exact FMi|]. intros a t Ha Ht. rewrite VMi in Ha.
      assert (M1 := Rmin_l (val b) (val st)). assert (M2 := Rmin_r (val b) (val st)).
      apply G; [right; right; repeat split; try lra; exact B1|exact Ht].
Qed.
Lemma pos_lower (h qmin qmax q v : Dnum) : step_ok h -> mild qmin -> mild q -> mild v -> bpow radix2 (-300) <= val q - val qmin ->
  let l := fst (pos_lim h (two / (h * h))%num qmin qmax q v) in
  fin l /\ forall a t, val l <= a -> 0 <= t <= val h ->
    val qmin - pslack (val q - val qmin) (val h * val v) <= val q + val v * t + a * (t * t) / 2.
Proof.
  intros Sh Mn Mq Mv Hd. cbn zeta. assert (Hh := proj2 Sh).
  destruct (reach_val h qmin q v Sh Mn Mq Mv) as (FM & VM). unfold reach_acc in FM, VM. destruct (stop_val h v Sh Mv) as (FS & VS & _ & SS).
  destruct (sq_val v Mv) as (F2 & V2).
  destruct (brake_val v q qmin (v * v)%num Mv Mq Mn Hd F2) as (FB & B1 & _ & B2); [reflexivity|].
  unfold pos_lim. set (m := (two / (h * h) * (qmin - q - h * v))%num) in *. set (st := (- v / h)%num) in *.
  set (b := (v * v / (two * (q - qmin)))%num) in *. assert (B3 : 0 <= val b) by (apply B2; exact V2).
  set (d := val q - val qmin) in *.
  assert (PE : pslack d (val h * - val v) = pslack d (val h * val v)) by (unfold pslack; rewrite <- Ropp_mult_distr_r, Rabs_Ropp; reflexivity).
  assert (VM' : Rabs (val h * val h / 2 * - val m - (d - val h * - val v)) <= rslack d (val h * - val v)).
  { replace (val h * val h / 2 * - val m - (d - val h * - val v)) with (- (val h * val h / 2 * val m - (val qmin - val q - val h * val v))) by (unfold d; ring).
    rewrite Rabs_Ropp. eapply Rle_trans; [exact VM|]. unfold rslack. rewrite <- Ropp_mult_distr_r, Rabs_Ropp. replace (val qmin - val q) with (- d) by (unfold d; ring). rewrite Rabs_Ropp. apply Rle_refl. }
  assert (VS' : Rabs (val h * - val st + - val v) <= uro * Rabs (- val v) + val h * eta).
  { replace (val h * - val st + - val v) with (- (val h * val st + val v)) by ring. rewrite !Rabs_Ropp. exact VS. }
  assert (SS' : 0 <= - val v -> - val st <= 0) by (intros X; assert (0 <= val st) by (apply SS; lra); lra).
  assert (G : forall a t, (- val v <= 0 /\ val m <= a \/ 0 <= - val v /\ val m < val st /\ val m <= a \/
      0 <= - val v /\ val b <= a /\ val st <= a) ->
    0 <= t <= val h -> val qmin - pslack d (val h * val v) <= val q + val v * t + a * (t * t) / 2).
  { intros a t H Ht. assert (X := one_side (val h) (- val v) d (- val m) (- val st) (- val b) (- a) t Hh Hd VM' VS' SS'). rewrite PE in X.
    assert (Y : - val v * t + - a * (t * t) / 2 <= d + pslack d (val h * val v)).
    { apply X; [|exact Ht]. destruct H as [(H1 & H2)|[(H1 & H2 & H3)|(H1 & H2 & H3)]].
      - left. split; lra.
      - right. left. repeat split; lra.
      - right. right. repeat split; try lra. rewrite !Rabs_Ropp. intros C. replace (- val v * - val v) with (val v * val v) by ring. exact (B1 C). }
    unfold d in *. lra. }
  rewrite (d_le v n0 (proj1 Mv) eq_refl). change (val n0) with 0. unfold Rleb.
  destruct (Rle_dec (val v) 0) as [Hv|Hv]; cbn [fst].
  - rewrite (d_lt m st FM FS). unfold Rltb. destruct (Rlt_dec (val m) (val st)) as [Hs|Hs].
    + split; [exact FM|]. intros a t Ha Ht. apply G; [right; left; repeat split; lra|exact Ht].
    + rewrite (d_eq q qmin (proj1 Mq) (proj1 Mn)). unfold Reqb. assert (P3 := bp (-300)).
      destruct (Req_EM_T (val q) (val qmin)) as [He|He]; [exfalso; unfold d in Hd; lra|]. cbn [negb].
      destruct (d_max b st FB FS) as (FMi & VMi). split; [exact FMi|]. intros a t Ha Ht. rewrite VMi in Ha.
      assert (M1 := Rmax_l (val b) (val st)). assert (M2 := Rmax_r (val b) (val st)).
      apply G; [right; right; repeat split; lra|exact Ht].
  - split; [exact FM|]. intros a t Ha Ht. apply G; [left; split; lra|exact Ht].
Qed.

(** * The task *)
(** Reached by any calls but setTimeStep from a constructor call with time step [dt]; any
    square root function [sq] and any truncation. *)
Section P.
Variable sq : Dnum -> Dnum.
Variable toZ : Dnum -> Z.
Definition keeps_dt (s : pva Dnum) (o : pvaop Dnum) : Prop := match o with PDt _ => False | _ => True end.
Definition dmade (name : string) (nv na : nat) (dt : Dnum) (s : pva Dnum) : Prop :=
  exists jk s0, pva_new toZ jk name nv na dt = Some (Some s0) /\ reach (pva_step sq toZ) keeps_dt s0 s.
Definition dinv (na : nat) (dt : Dnum) (s : pva Dnum) : Prop :=
  p_na s = na /\ p_dt s = (two * dt)%num /\ p_tds s = (two / (two * dt * (two * dt)))%num /\
  p_dts s = (two * dt * (two * dt))%num /\ p_ta s = (two * (two * dt * (two * dt)))%num.
Lemma mask_keeps jk (s s' : pva Dnum) m b : pva_mask toZ jk s m = Some (s', b) -> p_na s' = p_na s /\ p_dt s' = p_dt s /\ p_tds s' = p_tds s /\ p_dts s' = p_dts s /\ p_ta s' = p_ta s.
Proof.
  unfold pva_mask. destruct (set_mask _ _ _ _ _ _) as [d M ax|d ax|]; [|intros X; injection X as <- <-; auto 10|discriminate].
  destruct (cresize _ _ _) as [c|]; [|discriminate]. cbn [obind]. intros X. injection X as <- <-. auto 10.
Qed.
Lemma dmade_inv name nv na dt s : dmade name nv na dt s -> dinv na dt s.
Proof.
  intros (jk & s0 & E0 & R). apply (reach_inv (pva_step sq toZ) keeps_dt (dinv na dt) s0 s); [| |exact R].
  - unfold pva_new in E0. destruct (n0 <? dt)%num; [|discriminate]. destruct (pva_mask _ _ _ _) as [(s1 & b)|] eqn:EM; [|discriminate]. cbn [obind] in E0.
    apply mask_keeps in EM as (A & B & C & D & F). cbn [p_na p_dt p_tds p_dts p_ta] in A, B, C, D, F. destruct (guard _); [|discriminate]. cbn [obind] in E0. destruct b; [|discriminate].
    injection E0 as <-. unfold dinv. cbn [p_na p_dt p_tds p_dts p_ta]. auto 10.
  - intros s1 o s2 I P E. destruct o as [dt'|l u|u|u|b1 b2 b3 b4|jk' m|b|q v]; cbn [pva_step] in E; try contradiction.
    + destruct (_ && _); injection E as <-; exact I.
    + destruct (_ =? _)%nat; injection E as <-; exact I.
    + destruct (_ =? _)%nat; injection E as <-; exact I.
    + injection E as <-; exact I.
    + destruct (_ =? _)%nat; [|injection E as <-; exact I]. destruct (pva_mask toZ jk' s1 m) as [(s3 & [|])|] eqn:EM; try discriminate E;
        injection E as <-; apply mask_keeps in EM as (A & B & C & D & F); destruct I as (I1 & I2 & I3 & I4 & I5); unfold dinv; rewrite A, B, C, D, F; auto 10.
    + injection E as <-; exact I.
    + unfold pva_compute in E. destruct (vtail q _); [|discriminate]. destruct (vtail v _); [|discriminate]. cbn [obind] in E. injection E as <-. exact I.
Qed.
(** [x] is at most [p] / at least [p], or infinite on that side. *)
Definition under (p x : Dnum) : Prop := (fin x /\ val x <= val p) \/ x = B754_infinity true.
Definition above (p x : Dnum) : Prop := (fin x /\ val p <= val x) \/ x = B754_infinity false.
Lemma under_min p x y : under p x -> under p (nmin x y).
Proof.
  intros [(F & V)| ->]; unfold nmin.
  - destruct (y <? x)%num eqn:E; [|left; auto]. destruct y as [sy|sy| |sy my ey py].
    + left. rewrite d_lt in E by (exact F || reflexivity). unfold Rltb in E. destruct (Rlt_dec _ _); [|discriminate]. split; [reflexivity|lra].
    + destruct sy; [right; reflexivity|]. cbn [nltb Dnum] in E. destruct x as [[|]|[|]| |[|] ? ? ?]; discriminate E.
    + cbn [nltb Dnum] in E. destruct x as [[|]|[|]| |[|] ? ? ?]; discriminate E.
    + left. rewrite d_lt in E by (exact F || reflexivity). unfold Rltb in E. destruct (Rlt_dec _ _); [|discriminate]. split; [reflexivity|lra].
  - replace (y <? (B754_infinity true : Dnum))%num with false; [right; reflexivity|]. cbn [nltb Dnum]. destruct y as [[|]|[|]| |[|] ? ? ?]; reflexivity.
Qed.
Lemma above_max p x y : above p x -> above p (nmax x y).
Proof.
  intros [(F & V)| ->]; unfold nmax.
  - destruct (x <? y)%num eqn:E; [|left; auto]. destruct y as [sy|sy| |sy my ey py].
    + left. rewrite d_lt in E by (exact F || reflexivity). unfold Rltb in E. destruct (Rlt_dec _ _); [|discriminate]. split; [reflexivity|lra].
    + destruct sy; [|right; reflexivity]. cbn [nltb Dnum] in E. destruct x as [[|]|[|]| |[|] ? ? ?]; discriminate E.
    + cbn [nltb Dnum] in E. destruct x as [[|]|[|]| |[|] ? ? ?]; discriminate E.
    + left. rewrite d_lt in E by (exact F || reflexivity). unfold Rltb in E. destruct (Rlt_dec _ _); [|discriminate]. split; [reflexivity|lra].
  - replace ((B754_infinity false : Dnum) <? y)%num with false; [right; reflexivity|]. cbn [nltb Dnum]. destruct y as [[|]|[|]| |[|] ? ? ?]; reflexivity.
Qed.
Lemma under_min_r p x y : under p x -> fin y -> under y (nmin x y).
Proof.
  intros [(F & V)| ->] Fy; [|right; unfold nmin; replace (y <? (B754_infinity true : Dnum))%num with false; [reflexivity|]; cbn [nltb Dnum]; destruct y as [[|]|[|]| |[|] ? ? ?]; reflexivity].
  left. destruct (d_min x y F Fy) as (G & W). split; [exact G|]. rewrite W. apply Rmin_r.
Qed.
Lemma above_max_r p x y : above p x -> fin y -> above y (nmax x y).
Proof.
  intros [(F & V)| ->] Fy; [|right; unfold nmax; replace ((B754_infinity false : Dnum) <? y)%num with false; [reflexivity|]; cbn [nltb Dnum]; destruct y as [[|]|[|]| |[|] ? ? ?]; reflexivity].
  left. destruct (d_max x y F Fy) as (G & W). split; [exact G|]. rewrite W. apply Rmax_r.
Qed.
Lemma resolve_proper_all (p w x y : Dnum * Dnum) : fin (fst p) -> fin (snd p) -> fin (fst x) -> fin (snd x) -> fin (fst y) -> fin (snd y) -> let r := resolve p w x y in
  (fst r <? snd r)%num = true -> val (fst x) <= val (fst r) /\ val (snd r) <= val (snd x) /\ val (fst y) <= val (fst r) /\ val (snd r) <= val (snd y).
Proof.
  intros F1 F2 F3 F4 F5 F6. cbn zeta. unfold resolve. set (l := nmax _ _). set (u := nmin _ _).
  assert (L1 : above (fst p) (nmax (fst p) (fst w))) by (apply above_max; left; split; [exact F1|apply Rle_refl]).
  assert (U1 : under (snd p) (nmin (snd p) (snd w))) by (apply under_min; left; split; [exact F2|apply Rle_refl]).
  assert (L2 := above_max_r _ _ (fst x) L1 F3). assert (U2 := under_min_r _ _ (snd x) U1 F4).
  assert (L3 : above (fst x) l) by (apply above_max; exact L2). assert (U3 : under (snd x) u) by (apply under_min; exact U2).
  assert (L4 : above (fst y) l) by (apply (above_max_r _ _ _ L2 F5)). assert (U4 : under (snd y) u) by (apply (under_min_r _ _ _ U2 F6)).
  destruct (u <? l)%num; [destruct (u =? snd p)%num; cbn [fst snd]; rewrite d_irrefl; discriminate|]. cbn [fst snd]. intros E.
  assert (NL : l <> B754_infinity false) by (intros X; rewrite X in E; cbn [nltb Dnum] in E; destruct u as [[|]|[|]| |[|] ? ? ?]; discriminate E).
  assert (NU : u <> B754_infinity true) by (intros X; rewrite X in E; cbn [nltb Dnum] in E; destruct l as [[|]|[|]| |[|] ? ? ?]; discriminate E).
  destruct L3 as [(_ & L3)|L3]; [|destruct (NL L3)]. destruct U3 as [(_ & U3)|U3]; [|destruct (NU U3)].
  destruct L4 as [(_ & L4)|L4]; [|destruct (NL L4)]. destruct U4 as [(_ & U4)|U4]; [|destruct (NU U4)]. auto.
Qed.
Lemma resolve_proper (p w x y : Dnum * Dnum) : fin (fst p) -> fin (snd p) -> let r := resolve p w x y in
  (fst r <? snd r)%num = true -> fin (fst r) /\ fin (snd r) /\ val (fst p) <= val (fst r) /\ val (snd r) <= val (snd p).
Proof.
  intros F1 F2. cbn zeta. unfold resolve. set (l := nmax _ _). set (u := nmin _ _).
  assert (L : above (fst p) l) by (apply above_max, above_max, above_max; left; split; [exact F1|apply Rle_refl]).
  assert (U : under (snd p) u) by (apply under_min, under_min, under_min; left; split; [exact F2|apply Rle_refl]).
  destruct (u <? l)%num; [destruct (u =? snd p)%num; cbn [fst snd]; rewrite d_irrefl; discriminate|]. cbn [fst snd]. intros E.
  destruct L as [(FL & VL)|L].
  - destruct U as [(FU & VU)|U]; [auto|]. rewrite U in E. cbn [nltb Dnum] in E. destruct l as [[|]|[|]| |[|] ? ? ?]; discriminate E.
  - rewrite L in E. cbn [nltb Dnum] in E. destruct u as [[|]|[|]| |[|] ? ? ?]; discriminate E.
Qed.
(** If the computed interval is proper, every acceleration in it keeps the joint inside its
    position limits, up to the slack, during the whole (doubled) time step. *)
Theorem pvad_position name nv na dt (s s' : pva Dnum) (q v : vec Dnum) i : dmade name nv na dt s ->
  pva_step sq toZ s (PCompute q v) = Ret s' tt -> p_ipos s = true ->
  let h := (two * dt)%num in let qi := last_of na q i in let vi := last_of na v i in
  let lo := vget (p_qmin s) i in let up := vget (p_qmax s) i in
  let l := vget (c_lb (p_c s')) i in let u := vget (c_ub (p_c s')) i in
  step_ok h -> mild lo -> mild up -> mild qi -> mild vi ->
  bpow radix2 (-300) <= val up - val qi -> bpow radix2 (-300) <= val qi - val lo -> (l <? u)%num = true ->
  fin l /\ fin u /\ forall a t, val l <= a <= val u -> 0 <= t <= val h ->
    val lo - pslack (val qi - val lo) (val h * val vi) <= val qi + val vi * t + a * (t * t) / 2 <= val up + pslack (val up - val qi) (val h * val vi).
Proof.
  intros Hm E Hp h qi vi lo up l u Sh Ml Mu Mq Mv Hu Hl Hlu. destruct (dmade_inv _ _ _ _ _ Hm) as (I1 & I2 & I3 & _).
  cbn [pva_step] in E. unfold pva_compute in E. rewrite I1 in E. destruct (vtail q na) as [qa|] eqn:Eq; [|discriminate]. destruct (vtail v na) as [va|] eqn:Ev; [|discriminate].
  apply vtail_some in Eq as (_ & _ & Eq). apply vtail_some in Ev as (_ & _ & Ev). cbn [obind] in E. rewrite Hp in E. injection E as <-.
  unfold l, u in *. cbn [p_c c_lb c_ub vget] in *. rewrite !Eq, !Ev, I2, I3 in *. fold h qi vi lo up in Hlu |- *.
  destruct (pos_upper h lo up qi vi Sh Mu Mq Mv Hu) as (FU & PU). destruct (pos_lower h lo up qi vi Sh Ml Mq Mv Hl) as (FL & PL).
  match goal with |- context [resolve ?p ?w ?x ?y] => destruct (resolve_proper p w x y FL FU Hlu) as (G1 & G2 & G3 & G4); set (r := resolve p w x y) in * end.
  split; [exact G1|]. split; [exact G2|]. intros a t (A & B) Ht.
  split; [apply PL; [exact (Rle_trans _ _ _ G3 A)|exact Ht]|apply PU; [exact (Rle_trans _ _ _ B G4)|exact Ht]].
Qed.
(** The same interval respects the velocity limits up to the slack and the acceleration
    limits exactly. *)
Theorem pvad_velocity name nv na dt (s s' : pva Dnum) (q v : vec Dnum) i : dmade name nv na dt s ->
  pva_step sq toZ s (PCompute q v) = Ret s' tt -> p_ipos s = true ->
  let h := (two * dt)%num in let qi := last_of na q i in let vi := last_of na v i in
  let lo := vget (p_qmin s) i in let up := vget (p_qmax s) i in let V := vget (p_dqmax s) i in let A := vget (p_ddqmax s) i in
  let l := vget (c_lb (p_c s')) i in let u := vget (c_ub (p_c s')) i in
  step_ok h -> mild lo -> mild up -> mild qi -> mild vi -> mild V -> fin A ->
  bpow radix2 (-300) <= val up - val qi -> bpow radix2 (-300) <= val qi - val lo -> (l <? u)%num = true ->
  forall a, val l <= a <= val u ->
    (p_iacc s = true -> - val A <= a <= val A) /\
    (p_ivel s = true -> - val V - vslack (- val V) (val vi) (val h) <= val vi + val h * a <= val V + vslack (val V) (val vi) (val h)).
Proof.
  intros Hm E Hp h qi vi lo up V A l u Sh Ml Mu Mq Mv MV FA Hu Hl Hlu a (Ha & Hb). destruct (dmade_inv _ _ _ _ _ Hm) as (I1 & I2 & I3 & _).
  cbn [pva_step] in E. unfold pva_compute in E. rewrite I1 in E. destruct (vtail q na) as [qa|] eqn:Eq; [|discriminate]. destruct (vtail v na) as [va|] eqn:Ev; [|discriminate].
  apply vtail_some in Eq as (_ & _ & Eq). apply vtail_some in Ev as (_ & _ & Ev). cbn [obind] in E. rewrite Hp in E. injection E as <-.
  unfold l, u in *. cbn [p_c c_lb c_ub vget] in *. rewrite !Eq, !Ev, I2, I3 in *. fold h qi vi lo up V A in Hlu, Ha, Hb.
  destruct (pos_upper h lo up qi vi Sh Mu Mq Mv Hu) as (FU & _). destruct (pos_lower h lo up qi vi Sh Ml Mq Mv Hl) as (FL & _).
  assert (SM : forall x, mild x -> small x) by (intros x (X1 & X2); split; [exact X1|]; eapply Rle_trans; [exact X2|]; apply bpow_le; lia).
  destruct (d_opp V) as (VO & FO). assert (MO : mild (- V)%num) by (destruct MV as (F & W); split; [apply FO; exact F|rewrite VO, Rabs_Ropp; exact W]).
  assert (H5 : bpow radix2 (-500) <= val h) by (destruct Sh as (_ & (X & _)); eapply Rle_trans; [|exact X]; apply bpow_le; lia).
  destruct (d_quot V vi h (SM _ MV) (SM _ Mv) (proj1 Sh) H5) as (FQ1 & Q1). destruct (d_quot (- V)%num vi h (SM _ MO) (SM _ Mv) (proj1 Sh) H5) as (FQ2 & Q2).
  destruct (d_opp A) as (AO & FAO). specialize (FAO FA).
  assert (FX : fin (fst (vel_lim (p_ivel s) h V vi)) /\ fin (snd (vel_lim (p_ivel s) h V vi))) by (unfold vel_lim; destruct (p_ivel s); cbn [fst snd]; split; try assumption; vm_compute; reflexivity).
  assert (FY : fin (fst (acc_lim (p_iacc s) A)) /\ fin (snd (acc_lim (p_iacc s) A))) by (unfold acc_lim; destruct (p_iacc s); cbn [fst snd]; split; try assumption; vm_compute; reflexivity).
  match type of Hlu with context [resolve ?p ?w ?x ?y] => destruct (resolve_proper_all p w x y FL FU (proj1 FX) (proj2 FX) (proj1 FY) (proj2 FY) Hlu) as (G1 & G2 & G3 & G4); set (r := resolve p w x y) in * end.
  assert (A1 := Rle_trans _ _ _ G1 Ha). assert (A2 := Rle_trans _ _ _ Hb G2). assert (A3 := Rle_trans _ _ _ G3 Ha). assert (A4 := Rle_trans _ _ _ Hb G4).
  clear G1 G2 G3 G4 Ha Hb Hlu. clearbody r. assert (P := bp (-500)). split.
  - intros X. rewrite X in A3, A4. unfold acc_lim in A3, A4. cbn [fst snd] in A3, A4. rewrite AO in A3. split; assumption.
  - intros X. rewrite X in A1, A2. unfold vel_lim in A1, A2. cbn [fst snd] in A1, A2. rewrite VO in Q2. apply Rabs_le_inv in Q1, Q2.
    apply (Rmult_le_compat_l (val h)) in A1, A2; try (apply Rlt_le, Rlt_le_trans with (1 := P); exact H5).
    revert A1 A2 Q1 Q2. generalize (val h * val ((- V - vi) / h)%num) (val h * val ((V - vi) / h)%num) (val h * a) (vslack (- val V) (val vi) (val h)) (vslack (val V) (val vi) (val h)). intros; lra.
Qed.
End P.
