(** Viability: it is preserved by every admissible acceleration, and there always is
    one. *)
From Coq Require Import Reals Lra Psatz.
From Verif Require Import JointSpec JointReal JointLimits.
Open Scope R_scope.

Lemma via_ok_neg h A qmin qmax q v a : via_ok h A qmin qmax q v a -> via_ok h A (- qmax) (- qmin) (- q) (- v) (- a).
Proof.
  unfold via_ok. rewrite pos_at_neg. replace (vel_at (- v) (- a) h) with (- vel_at v a h) by (unfold vel_at; ring).
  rewrite Rmult_opp_opp. intros [U L]. split.
  - destruct L as [L|L]; [left; lra|right; lra].
  - destruct U as [U|U]; [left; lra|right; lra].
Qed.
(** v(t)^2 + 2 A q(t) between two instants. *)
Lemma energy q v a A s t : vel_at v a t * vel_at v a t + 2 * A * pos_at q v a t
  - (vel_at v a s * vel_at v a s + 2 * A * pos_at q v a s) = (a + A) * (t - s) * (vel_at v a s + vel_at v a t).
Proof. unfold vel_at, pos_at. field. Qed.
Lemma brake_up h A qmin qmax q v a t : 0 < h -> 0 <= A -> brake A qmin qmax q v -> stays qmin qmax q v a h ->
  via_ok h A qmin qmax q v a -> 0 <= t <= h -> 0 < vel_at v a t ->
  vel_at v a t * vel_at v a t <= 2 * A * (qmax - pos_at q v a t).
Proof.
  intros Hh HA (B & U & _) S (V & _) Ht Hv.
  destruct (Rle_dec 0 (a + A)) as [Ha|Ha].
  - destruct V as [V|V].
    + (* it stops at s in the step *)
      assert (a < 0) by (unfold vel_at in *; nra). set (s := - v / a).
      assert (Es : a * s = - v) by (unfold s; field; lra). assert (V0 : vel_at v a s = 0) by (unfold vel_at; lra).
      assert (t <= s) by (unfold vel_at in *; nra). assert (s <= h) by (unfold vel_at in *; nra).
      assert (E := energy q v a A t s). rewrite V0 in E. assert (P := S s ltac:(lra)).
      assert (0 <= (a + A) * (s - t) * (vel_at v a t + 0)) by (apply Rmult_le_pos; [apply Rmult_le_pos; lra|lra]).
      assert (2 * A * pos_at q v a s <= 2 * A * qmax) by (apply Rmult_le_compat_l; lra). lra.
    + destruct (Rle_dec (vel_at v a h) 0) as [V0|V0].
      * assert (a < 0) by (unfold vel_at in *; nra). set (s := - v / a).
        assert (Es : a * s = - v) by (unfold s; field; lra). assert (V1 : vel_at v a s = 0) by (unfold vel_at; lra).
        assert (t <= s) by (unfold vel_at in *; nra). assert (s <= h) by (unfold vel_at in *; nra).
        assert (E := energy q v a A t s). rewrite V1 in E. assert (P := S s ltac:(lra)).
        assert (0 <= (a + A) * (s - t) * (vel_at v a t + 0)) by (apply Rmult_le_pos; [apply Rmult_le_pos; lra|lra]).
        assert (2 * A * pos_at q v a s <= 2 * A * qmax) by (apply Rmult_le_compat_l; lra). lra.
      * assert (E := energy q v a A t h).
        assert (0 <= (a + A) * (h - t) * (vel_at v a t + vel_at v a h)) by (apply Rmult_le_pos; [apply Rmult_le_pos; lra|lra]). lra.
  - assert (a < 0) by lra. assert (0 < v) by (unfold vel_at in *; nra). specialize (U H0).
    assert (E := energy q v a A 0 t). replace (vel_at v a 0) with v in E by (unfold vel_at; ring). rewrite pos_at_0 in E.
    assert (0 <= (- (a + A)) * (t - 0) * (v + vel_at v a t)) by (apply Rmult_le_pos; [apply Rmult_le_pos; lra|lra]). lra.
Qed.
(** Every acceleration within the position and viability limits keeps the joint able
    to brake, at every instant of the step. *)
Theorem brake_kept h A qmin qmax q v a t : 0 < h -> 0 <= A -> brake A qmin qmax q v -> stays qmin qmax q v a h ->
  via_ok h A qmin qmax q v a -> 0 <= t <= h -> brake A qmin qmax (pos_at q v a t) (vel_at v a t).
Proof.
  intros Hh HA B S V Ht. split; [apply S; exact Ht|]. split; intros Hv.
  - apply (brake_up h A qmin qmax q v a t); assumption.
  - assert (G := brake_up h A (- qmax) (- qmin) (- q) (- v) (- a) t Hh HA (brake_neg _ _ _ _ _ B) (stays_neg _ _ _ _ _ _ S) (via_ok_neg _ _ _ _ _ _ _ V) Ht).
    rewrite pos_at_neg in G. replace (vel_at (- v) (- a) t) with (- vel_at v a t) in G by (unfold vel_at; ring).
    rewrite Rmult_opp_opp in G. specialize (G ltac:(lra)). lra.
Qed.

(** An acceleration all four limits allow. *)
Definition all_ok (h A qmin qmax m q v a : R) : Prop :=
  stays qmin qmax q v a h /\ via_ok h A qmin qmax q v a /\ - m <= vel_at v a h <= m /\ - A <= a <= A.
Lemma feasible_up h A qmin qmax m q v : 0 < h -> 0 < A -> A * (h * h) <= qmax - qmin -> A * h <= m ->
  0 <= v -> brake A qmin qmax q v -> v <= m -> exists a, all_ok h A qmin qmax m q v a.
Proof.
  intros Hh HA HW Hm Hv (B & U & _) Hvm. assert (H2 : 0 < h * h) by (apply Rmult_lt_0_compat; assumption).
  destruct (Rle_dec (h * A) v) as [C1|C1].
  { (* brake during the whole step *)
    assert (HV : 0 < v) by nra. specialize (U HV).
    exists (- A). split.
    - intros t Ht. assert (A * t <= v) by nra. unfold pos_at. split; [nra|].
      assert (0 <= (v - A * t) * (v - A * t)) by apply Rle_0_sqr. apply Rmult_le_reg_l with (2 * A); [lra|]. nra.
    - unfold via_ok, vel_at, pos_at. split; [|nra]. split; [right|left; nra]. nra. }
  destruct (Rle_dec (v * h) (2 * (qmax - q))) as [C2|C2].
  { (* stop at the end of the step *)
    exists (- v / h). assert (Z : vel_at v (- v / h) h = 0) by (unfold vel_at; field; lra).
    assert (A1 : - A <= - v / h). { apply Rmult_le_reg_r with h; [lra|]. unfold Rdiv. rewrite Rmult_assoc, Rinv_l by lra. lra. }
    assert (A2 : - v / h <= 0). { apply Rmult_le_reg_r with h; [lra|]. unfold Rdiv. rewrite Rmult_assoc, Rinv_l by lra. lra. }
    split.
    - intros t Ht. assert (E : pos_at q v (- v / h) t = q + v * t * (2 * h - t) / (2 * h)) by (unfold pos_at; field; lra).
      rewrite E. assert (X : 0 <= v * t * (2 * h - t) / (2 * h)).
      { apply Rmult_le_pos; [apply Rmult_le_pos; nra|]. apply Rlt_le, Rinv_0_lt_compat. lra. }
      split; [lra|]. assert (Y : v * t * (2 * h - t) / (2 * h) <= v * h / 2); [|lra].
      apply Rmult_le_reg_r with (2 * h); [lra|]. unfold Rdiv at 1. rewrite Rmult_assoc, Rinv_l by lra.
      assert (0 <= v * ((h - t) * (h - t))) by (apply Rmult_le_pos; [lra|apply Rle_0_sqr]). nra.
    - unfold via_ok. rewrite Z. split; [split; left; lra|]. split; lra. }
  (* turn around at the limit *)
  assert (HV : 0 < v) by nra. specialize (U HV). set (D := qmax - q) in *.
  assert (HD : 0 < D). { destruct B as [_ B]. destruct (Rle_lt_or_eq_dec 0 D) as [X|X]; [unfold D; lra|exact X|]. rewrite <- X in U. nra. }
  set (a := v * v / (2 * D)). assert (Ea : a * (2 * D) = v * v) by (unfold a; field; lra).
  assert (Ha : 0 < a) by (apply Rdiv_lt_0_compat; nra). assert (HaA : a <= A) by nra.
  assert (HaD : a * D = v * v / 2) by lra.
  (* distance to the upper limit is a (t - s)^2 / 2 with a s = v *)
  set (s := v / a). assert (Es : a * s = v) by (unfold s; field; lra).
  assert (Hs : 0 < s) by (apply Rdiv_lt_0_compat; lra).
  assert (Hsh : s <= h). { assert (v * s <= v * h); [|nra]. assert (v * s = 2 * D); [|lra]. apply Rmult_eq_reg_l with a; [|lra]. replace (a * (v * s)) with ((a * s) * v) by ring. rewrite Es. lra. }
  assert (Hc : forall t, qmax - pos_at q v (- a) t = a * ((t - s) * (t - s)) / 2).
  { intros t. unfold pos_at. fold D. replace (a * ((t - s) * (t - s)) / 2) with (a * (t * t) / 2 - (a * s) * t + (a * s) * s / 2) by field.
    rewrite Es. assert (v * s / 2 = D); [|unfold D in *; lra]. apply Rmult_eq_reg_l with a; [|lra]. replace (a * (v * s / 2)) with ((a * s) * v / 2) by field. rewrite Es. lra. }
  assert (HF : a * ((h - s) * (h - s)) / 2 <= (qmax - qmin) / 2).
  { apply Rle_trans with (A * (h * h) / 2); [|lra]. assert ((h - s) * (h - s) <= h * h) by nra. nra. }
  assert (HVh : vel_at v (- a) h = - (a * (h - s))) by (unfold vel_at; nra).
  exists (- a). split.
  - intros t Ht. specialize (Hc t). assert (0 <= (t - s) * (t - s)) by apply Rle_0_sqr. split; [|nra].
    destruct (Rle_dec t s) as [X|X].
    + (* going up: not below q *)
      assert (q <= pos_at q v (- a) t); [|lra].
      assert (0 <= t * (2 * v - a * t)) by (apply Rmult_le_pos; [lra|nra]). unfold pos_at. lra.
    + assert ((t - s) * (t - s) <= (h - s) * (h - s)) by nra. nra.
  - split.
    + split.
      * left. rewrite HVh. nra.
      * right. rewrite HVh. specialize (Hc h).
        replace (- (a * (h - s)) * - (a * (h - s))) with (2 * a * (a * ((h - s) * (h - s)) / 2)) by field. rewrite <- Hc.
        assert (0 <= qmax - pos_at q v (- a) h) by (rewrite Hc; assert (0 <= (h - s) * (h - s)) by apply Rle_0_sqr; nra).
        assert (qmax - pos_at q v (- a) h <= pos_at q v (- a) h - qmin) by lra.
        apply Rle_trans with (2 * A * (qmax - pos_at q v (- a) h)); [nra|nra].
    + rewrite HVh. split; [split; nra|lra].
Qed.
Lemma all_ok_neg h A qmin qmax m q v a : all_ok h A (- qmax) (- qmin) m (- q) (- v) a -> all_ok h A qmin qmax m q v (- a).
Proof.
  intros (S & V & M & HA). split.
  - apply stays_neg'. rewrite Ropp_involutive. exact S.
  - split; [apply via_ok_neg in V; rewrite !Ropp_involutive in V; exact V|].
    replace (vel_at (- v) a h) with (- vel_at v (- a) h) in M by (unfold vel_at; ring). split; lra.
Qed.
Theorem feasible h A qmin qmax m q v : 0 < h -> 0 < A -> A * (h * h) <= qmax - qmin -> A * h <= m ->
  brake A qmin qmax q v -> - m <= v <= m -> exists a, all_ok h A qmin qmax m q v a.
Proof.
  intros Hh HA HW Hm B Hv. destruct (Rle_dec 0 v) as [C|C]; [apply feasible_up; (assumption || lra)|].
  destruct (feasible_up h A (- qmax) (- qmin) m (- q) (- v)) as [a H]; try assumption; try lra; [apply brake_neg; exact B|].
  exists (- a). apply all_ok_neg. exact H.
Qed.
