(** Per-joint limits over the reals. *)
From Coq Require Import Reals Lra Psatz.
From Verif Require Import JointSpec.
Open Scope R_scope.

(** ** Stopping distance *)
Definition brake (A qmin qmax q v : R) : Prop :=
  qmin <= q <= qmax /\ (0 < v -> v * v <= 2 * A * (qmax - q)) /\ (v < 0 -> v * v <= 2 * A * (q - qmin)).

Lemma pos_at_0 q v a : pos_at q v a 0 = q.
Proof. unfold pos_at. field. Qed.
Lemma pos_at_neg q v a t : pos_at (- q) (- v) (- a) t = - pos_at q v a t.
Proof. unfold pos_at. field. Qed.

Lemma brake_neg A qmin qmax q v : brake A qmin qmax q v -> brake A (- qmax) (- qmin) (- q) (- v).
Proof.
  intros (B & U & L). split; [lra|]. split; intros H.
  - assert (v < 0) by lra. specialize (L H0). nra.
  - assert (0 < v) by lra. specialize (U H0). nra.
Qed.
Lemma stays_neg qmin qmax q v a T : stays qmin qmax q v a T -> stays (- qmax) (- qmin) (- q) (- v) (- a) T.
Proof. intros H t Ht. rewrite pos_at_neg. specialize (H t Ht). lra. Qed.
Lemma stays_neg' qmin qmax q v a T : stays (- qmax) (- qmin) (- q) (- v) (- a) T -> stays qmin qmax q v a T.
Proof. intros H t Ht. specialize (H t Ht). rewrite pos_at_neg in H. lra. Qed.

Lemma stop_up A qmin qmax q v : 0 < v -> 0 <= A -> stoppable A qmin qmax q v -> v * v <= 2 * A * (qmax - q).
Proof.
  intros Hv HA (a & T & Ha & HT & E & S). unfold vel_at in E.
  assert (P := S T ltac:(lra)). unfold pos_at in P.
  assert (E2 : a * (T * T) = - v * T) by (replace (a * (T * T)) with ((a * T) * T) by ring; replace (a * T) with (- v) by lra; ring).
  rewrite E2 in P. assert (v * T / 2 <= qmax - q) by lra.
  assert (v <= A * T). { nra. }
  nra.
Qed.
Lemma stop_of_brake A qmin qmax q v : 0 < v -> 0 <= A -> brake A qmin qmax q v -> stoppable A qmin qmax q v.
Proof.
  intros Hv HA (B & U & _). specialize (U Hv).
  assert (0 < A). { destruct HA as [?|<-]; [assumption|]. nra. }
  exists (- A), (v / A). assert (TT : 0 < v / A) by (apply Rdiv_lt_0_compat; lra).
  split; [lra|]. split; [lra|]. split; [unfold vel_at; field; lra|].
  intros t Ht. unfold pos_at. assert (A * t <= v). { apply Rmult_le_reg_r with (/ A); [apply Rinv_0_lt_compat; lra|]. unfold Rdiv in Ht. replace (A * t * / A) with t by (field; lra). lra. }
  split; [nra|]. assert (D : 0 <= (v - A * t) * (v - A * t)) by apply Rle_0_sqr. 
  apply Rmult_le_reg_l with (2 * A); [lra|]. nra.
Qed.
Theorem stoppable_iff A qmin qmax q v : 0 <= A -> (stoppable A qmin qmax q v <-> brake A qmin qmax q v).
Proof.
  intros HA. split.
  - intros S. assert (S' := S). destruct S as (a & T & Ha & HT & E & S). split.
    + specialize (S 0 ltac:(lra)). rewrite pos_at_0 in S. exact S.
    + split; intros Hv.
      * eapply stop_up; eassumption.
      * assert (G : (- v) * (- v) <= 2 * A * (- qmin - - q)).
        { apply (stop_up A (- qmax) (- qmin)); [lra|lra|]. exists (- a), T. split; [lra|]. split; [exact HT|].
          split; [unfold vel_at in *; lra|]. apply stays_neg. exact S. }
        nra.
  - intros B. destruct (Rtotal_order v 0) as [Hv|[->|Hv]].
    + destruct (stop_of_brake A (- qmax) (- qmin) (- q) (- v)) as (a & T & Ha & HT & E & S); [lra|lra|apply brake_neg; exact B|].
      exists (- a), T. split; [lra|]. split; [exact HT|]. split; [unfold vel_at in *; lra|].
      apply stays_neg'. rewrite !Ropp_involutive. exact S.
    + exists 0, 0. split; [lra|]. split; [lra|]. split; [unfold vel_at; ring|].
      intros t Ht. destruct B as [B _]. unfold pos_at. assert (t = 0) by lra. subst. lra.
    + apply stop_of_brake; assumption.
Qed.

(** ** Largest acceleration that keeps a distance [D] over a step [h] *)
Definition keeps (D v a h : R) : Prop := forall t, 0 <= t <= h -> v * t + a * (t * t) / 2 <= D.
Lemma keeps_end D v a h : 0 < h -> 0 <= D -> v * h + a * (h * h) / 2 <= D -> 0 <= a \/ v <= 0 \/ v * h <= 2 * D -> keeps D v a h.
Proof.
  intros Hh HD HE HC t Ht. destruct (Rle_dec 0 a) as [Ha|Ha].
  - assert (G : h * (v * t + a * (t * t) / 2) <= h * D); [|apply Rmult_le_reg_l with h; assumption].
    assert (h * (v * t + a * (t * t) / 2) = t * (v * h + a * (h * h) / 2) - a * (t * ((h - t) * h)) / 2) by field.
    assert (t * (v * h + a * (h * h) / 2) <= h * D). { apply Rle_trans with (t * D); [apply Rmult_le_compat_l; lra|apply Rmult_le_compat_r; lra]. }
    assert (0 <= t * ((h - t) * h)) by (apply Rmult_le_pos; [lra|apply Rmult_le_pos; lra]). nra.
  - destruct HC as [?|[Hv|HC]]; [lra|nra|].
    destruct (Rle_dec v 0) as [Hv|Hv]; [nra|].
    (* a < 0 < v, v h <= 2 D *)
    destruct (Rle_dec (- a * h) v) as [Hm|Hm].
    + (* increasing up to h *)
      assert (0 <= (h - t) * (v + a * (h + t) / 2)) by (apply Rmult_le_pos; [lra|nra]). nra.
    + (* maximum inside *)
      assert (0 <= (v + a * t) * (v + a * t)) by apply Rle_0_sqr.
      assert (G : (- a) * (v * t + a * (t * t) / 2) <= (- a) * D); [|apply Rmult_le_reg_l with (- a); [lra|exact G]].
      assert (2 * (- a) * (v * t + a * (t * t) / 2) = v * v - (v + a * t) * (v + a * t)) by field.
      assert (v * v <= 2 * (- a) * D). { apply Rle_trans with ((- a) * (v * h)); [nra|]. nra. }
      lra.
Qed.
Lemma keeps_at D v a h : 0 <= h -> keeps D v a h -> v * h + a * (h * h) / 2 <= D.
Proof. intros Hh H. apply (H h). lra. Qed.
Lemma end_lim D v a h : 0 < h -> (a <= 2 / (h * h) * (D - h * v) <-> v * h + a * (h * h) / 2 <= D).
Proof.
  intros Hh. assert (H2 : 0 < h * h) by (apply Rmult_lt_0_compat; assumption).
  replace (2 / (h * h) * (D - h * v)) with ((D - h * v) * 2 / (h * h)) by (field; lra).
  split; intros H.
  - apply Rmult_le_compat_r with (r := h * h / 2) in H; [|lra].
    replace ((D - h * v) * 2 / (h * h) * (h * h / 2)) with (D - h * v) in H by (field; lra). lra.
  - apply Rmult_le_reg_r with (h * h / 2); [lra|].
    replace ((D - h * v) * 2 / (h * h) * (h * h / 2)) with (D - h * v) by (field; lra). lra.
Qed.
(** Case D < v h / 2: the joint must turn around inside the step. *)
Lemma keeps_turn D v a h : 0 < h -> 0 < v -> 0 < D -> 2 * D <= h * v ->
  (keeps D v a h <-> a <= - (v * v) / (2 * D)).
Proof.
  intros Hh Hv HD HC. split.
  - intros H. set (t := 2 * D / v).
    assert (Ht : 0 <= t <= h). { unfold t. split; [apply Rlt_le, Rdiv_lt_0_compat; lra|]. apply Rmult_le_reg_r with v; [lra|]. unfold Rdiv. rewrite Rmult_assoc, Rinv_l by lra. lra. }
    specialize (H t Ht). unfold t in H.
    replace (v * (2 * D / v) + a * (2 * D / v * (2 * D / v)) / 2) with (2 * D + a * (2 * D * D / (v * v))) in H by (field; lra).
    apply Rmult_le_reg_r with (2 * D * D / (v * v)).
    { apply Rdiv_lt_0_compat; nra. }
    replace (- (v * v) / (2 * D) * (2 * D * D / (v * v))) with (- D) by (field; lra). lra.
  - intros H t Ht.
    assert (K : a * (2 * D) <= - (v * v)). { apply Rmult_le_compat_r with (r := 2 * D) in H; [|lra]. unfold Rdiv in H. rewrite Rmult_assoc, Rinv_l in H by lra. lra. }
    assert (Ha : a < 0) by nra.
    assert (0 <= (v + a * t) * (v + a * t)) by apply Rle_0_sqr.
    assert (G : (- a) * (v * t + a * (t * t) / 2) <= (- a) * D); [|apply Rmult_le_reg_l with (- a); [lra|exact G]].
    assert (2 * (- a) * (v * t + a * (t * t) / 2) = v * v - (v + a * t) * (v + a * t)) by field. lra.
Qed.
