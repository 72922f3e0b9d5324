(** The per-joint limit functions of the model over the reals. *)
From Coq Require Import Bool QArith Reals Qreals Lra Psatz.
From Verif Require Import Scalar JointSpec JointReal JointBounds.
Open Scope R_scope.

Notation rsqrt := (sqrt : Rnum -> Rnum).
Lemma two_R : @two Rnum = 2.
Proof. unfold two, Rnum, nofQ, Q2R. simpl. lra. Qed.
Lemma huge_R : @huge Rnum = 10 ^ 10.
Proof. unfold huge, Rnum, nofQ, Q2R. simpl. lra. Qed.
Lemma mhuge_R : @mhuge Rnum = - 10 ^ 10.
Proof. unfold mhuge, Rnum, nofQ, Q2R. simpl. lra. Qed.
Lemma eps_R : @eps Rnum = / 10 ^ 10.
Proof. unfold eps, Rnum, nofQ, Q2R. simpl. lra. Qed.
Lemma nmax_R (x y : R) : @nmax Rnum x y = Rmax x y.
Proof.
  unfold nmax. change (@nltb Rnum x y) with (Rltb x y). unfold Rmax. destruct (Rltb x y) eqn:E.
  - apply Rltb_true in E. destruct (Rle_dec x y); lra.
  - apply Rltb_false in E. destruct (Rle_dec x y); lra.
Qed.
Lemma nmin_R (x y : R) : @nmin Rnum x y = Rmin x y.
Proof.
  unfold nmin. change (@nltb Rnum y x) with (Rltb y x). unfold Rmin. destruct (Rltb y x) eqn:E.
  - apply Rltb_true in E. destruct (Rle_dec x y); lra.
  - apply Rltb_false in E. destruct (Rle_dec x y); lra.
Qed.
Lemma max_le (a b c : R) : Rmax a b <= c <-> a <= c /\ b <= c.
Proof. unfold Rmax. destruct (Rle_dec a b); lra. Qed.
Lemma le_max (a b c : R) : c <= Rmax a b <-> c <= a \/ c <= b.
Proof. unfold Rmax. destruct (Rle_dec a b); lra. Qed.
Lemma le_min (a b c : R) : c <= Rmin a b <-> c <= a /\ c <= b.
Proof. unfold Rmin. destruct (Rle_dec a b); lra. Qed.
Lemma min_le (a b c : R) : Rmin a b <= c <-> a <= c \/ b <= c.
Proof. unfold Rmin. destruct (Rle_dec a b); lra. Qed.

(** ** Position limits *)
Definition up_lim (h D v : R) : R :=
  let mx := 2 / (h * h) * (D - h * v) in
  if Rle_dec v 0 then mx else if Rlt_dec (- v / h) mx then mx
  else if Req_EM_T D 0 then 0 else Rmin (- (v * v) / (2 * D)) (- v / h).
Lemma up_lim_exact h D v a : 0 < h -> 0 <= D -> (D = 0 -> v <= 0) -> (a <= up_lim h D v <-> keeps D v a h).
Proof.
  intros Hh HD HZ. assert (H2 : 0 < h * h) by (apply Rmult_lt_0_compat; assumption).
  assert (HS : - v / h < 2 / (h * h) * (D - h * v) <-> h * v < 2 * D).
  { replace (- v / h) with (- (v * h) / (h * h)) by (field; lra).
    replace (2 / (h * h) * (D - h * v)) with ((2 * (D - h * v)) / (h * h)) by (field; lra).
    split; intros H.
    - apply Rmult_lt_compat_r with (r := h * h) in H; [|lra]. unfold Rdiv in H. rewrite !Rmult_assoc, Rinv_l in H by lra. lra.
    - apply Rmult_lt_reg_r with (h * h); [lra|]. unfold Rdiv. rewrite !Rmult_assoc, Rinv_l by lra. lra. }
  unfold up_lim. destruct (Rle_dec v 0) as [Hv|Hv].
  { rewrite end_lim by assumption. split; [|apply keeps_at; lra]. intros H. apply keeps_end; auto. }
  destruct (Rlt_dec _ _) as [Hs|Hs].
  { apply HS in Hs. rewrite end_lim by assumption. split; [|apply keeps_at; lra]. intros H. apply keeps_end; auto. right. right. lra. }
  assert (Hs' : 2 * D <= h * v). { destruct (Rle_dec (2 * D) (h * v)); [assumption|]. exfalso. apply Hs, HS. lra. }
  destruct (Req_EM_T D 0) as [->|HD0]; [specialize (HZ eq_refl); lra|].
  rewrite (keeps_turn D v a h) by lra. rewrite le_min. split; [tauto|]. intros H. split; [exact H|].
  apply Rle_trans with (1 := H).
  apply Rmult_le_reg_r with (2 * D * h); [nra|].
  replace (- (v * v) / (2 * D) * (2 * D * h)) with (- (v * (h * v))) by (field; lra).
  replace (- v / h * (2 * D * h)) with (- (v * (2 * D))) by (field; lra). nra.
Qed.
(** The limits of the model: the lower one is the upper one of the mirrored joint. *)
Lemma pos_lim_up h (qmin qmax q v : R) : 0 < h ->
  snd (@pos_lim Rnum h (2 / (h * h)) qmin qmax q v) = up_lim h (qmax - q) v.
Proof.
  intros Hh. unfold pos_lim, up_lim. rewrite two_R.
  change (@nleb Rnum v (@n0 Rnum)) with (Rleb v 0).
  destruct (Rle_dec v 0) as [Hv|Hv].
  - replace (Rleb v 0) with true by (symmetry; apply Rleb_true; lra). reflexivity.
  - replace (Rleb v 0) with false by (symmetry; apply Rleb_false; lra). cbn [snd].
    cbn [Rnum nltb neqb nsub nmul ndiv nopp n0]. rewrite nmin_R.
    destruct (Rlt_dec _ _) as [H|H].
    + replace (Rltb _ _) with true by (symmetry; apply Rltb_true; exact H). reflexivity.
    + replace (Rltb _ _) with false by (symmetry; apply Rltb_false; lra).
      destruct (Req_EM_T (qmax - q) 0) as [E|E].
      * replace (Reqb q qmax) with true by (symmetry; apply Reqb_true; lra). reflexivity.
      * replace (Reqb q qmax) with false by (symmetry; apply Reqb_false; lra). reflexivity.
Qed.
Lemma pos_lim_low h (qmin qmax q v : R) : 0 < h -> (q = qmin -> 0 <= v) -> qmin <= q ->
  - fst (@pos_lim Rnum h (2 / (h * h)) qmin qmax q v) = up_lim h (q - qmin) (- v).
Proof.
  intros Hh HZ HB. assert (H2 : 0 < h * h) by (apply Rmult_lt_0_compat; assumption).
  assert (EM : - (2 / (h * h) * (qmin - q - h * v)) = 2 / (h * h) * (q - qmin - h * - v)) by (field; lra).
  unfold pos_lim, up_lim. rewrite two_R.
  change (@nleb Rnum v (@n0 Rnum)) with (Rleb v 0). cbn [Rnum nltb neqb nsub nmul ndiv nopp n0 n1]. rewrite nmax_R.
  destruct (Rle_dec v 0) as [Hv|Hv].
  - replace (Rleb v 0) with true by (symmetry; apply Rleb_true; lra). cbn [fst].
    destruct (Rle_dec (- v) 0) as [Hv'|Hv'].
    + (* v = 0 *)
      assert (v = 0) by lra. subst v.
      destruct (Rltb (2 / (h * h) * (qmin - q - h * 0)) (- 0 / h)) eqn:E; [exact EM|].
      assert (EQ : qmin = q).
      { apply Rltb_false in E. destruct (Rle_lt_or_eq_dec _ _ HB) as [L|L]; [|exact L]. exfalso.
        replace (- 0 / h) with 0 in E by (field; lra).
        assert (0 < 2 / (h * h)) by (apply Rdiv_lt_0_compat; lra). nra. }
      rewrite EQ. replace (Reqb q q) with true by (symmetry; apply Reqb_true; reflexivity). cbn [negb].
      field. lra.
    + destruct (Rlt_dec (- - v / h) (2 / (h * h) * (q - qmin - h * - v))) as [H|H].
      * replace (Rltb _ _) with true; [exact EM|]. symmetry. apply Rltb_true.
        replace (- v / h) with (- (- - v / h)) by (field; lra). rewrite <- EM in H. lra.
      * replace (Rltb _ _) with false.
        2:{ symmetry. apply Rltb_false. replace (- v / h) with (- (- - v / h)) by (field; lra). rewrite <- EM in H. lra. }
        destruct (Req_EM_T (q - qmin) 0) as [E|E].
        -- assert (q = qmin) by lra. specialize (HZ H0). lra.
        -- replace (Reqb q qmin) with false by (symmetry; apply Reqb_false; lra). cbn [negb].
           replace (- (- v * - v) / (2 * (q - qmin))) with (- (v * v / (2 * (q - qmin)))) by (field; lra).
           replace (- - v / h) with (- (- v / h)) by (field; lra).
           unfold Rmax, Rmin. destruct (Rle_dec (v * v / _) _), (Rle_dec (- (v * v / _)) _); lra.
  - replace (Rleb v 0) with false by (symmetry; apply Rleb_false; lra). cbn [fst].
    destruct (Rle_dec (- v) 0) as [Hv'|Hv']; [exact EM|lra].
Qed.
Definition within (l : Rnum * Rnum) (a : R) : Prop := fst l <= a <= snd l.
Theorem pos_lim_exact h (qmin qmax q v a : R) : 0 < h -> qmin <= q <= qmax ->
  (q = qmin -> 0 <= v) -> (q = qmax -> v <= 0) ->
  (within (@pos_lim Rnum h (2 / (h * h)) qmin qmax q v) a <-> stays qmin qmax q v a h).
Proof.
  intros Hh HB Z1 Z2. unfold within. rewrite (pos_lim_up h qmin qmax q v Hh).
  assert (EL := pos_lim_low h qmin qmax q v Hh Z1 (proj1 HB)).
  assert (L : fst (@pos_lim Rnum h (2 / (h * h)) qmin qmax q v) <= a <-> keeps (q - qmin) (- v) (- a) h).
  { rewrite <- up_lim_exact by (try lra; intros; assert (q = qmin) by lra; specialize (Z1 H0); lra). rewrite <- EL. lra. }
  rewrite L. rewrite up_lim_exact by (try lra; intros; assert (q = qmax) by lra; specialize (Z2 H0); lra).
  unfold keeps, stays, pos_at. split.
  - intros [A B] t Ht. specialize (A t Ht). specialize (B t Ht). lra.
  - intros H. split; intros t Ht; specialize (H t Ht); lra.
Qed.

(** ** Viability limits *)
(** Root test: with b^2 - 4 p c = d, p > 0. *)
Lemma between_roots p b c x s : 0 < p -> 0 <= s -> s * s = b * b - 4 * p * c ->
  (p * (x * x) + b * x + c <= 0 <-> (- b - s) / (2 * p) <= x <= (- b + s) / (2 * p)).
Proof.
  intros Hp Hs E.
  assert (ID : 4 * p * (p * (x * x) + b * x + c) = (2 * p * x + b) * (2 * p * x + b) - s * s) by (rewrite E; ring).
  assert (L : (- b - s) / (2 * p) <= x <-> - s <= 2 * p * x + b).
  { split; intros H.
    - apply Rmult_le_compat_r with (r := 2 * p) in H; [|lra]. unfold Rdiv in H. rewrite Rmult_assoc, Rinv_l in H by lra. lra.
    - apply Rmult_le_reg_r with (2 * p); [lra|]. unfold Rdiv. rewrite Rmult_assoc, Rinv_l by lra. lra. }
  assert (U : x <= (- b + s) / (2 * p) <-> 2 * p * x + b <= s).
  { split; intros H.
    - apply Rmult_le_compat_r with (r := 2 * p) in H; [|lra]. unfold Rdiv in H. rewrite Rmult_assoc, Rinv_l in H by lra. lra.
    - apply Rmult_le_reg_r with (2 * p); [lra|]. unfold Rdiv. rewrite Rmult_assoc, Rinv_l by lra. lra. }
  rewrite L, U. split.
  - intros H. assert ((2 * p * x + b) * (2 * p * x + b) <= s * s) by nra.
    split; [|nra]. destruct (Rle_dec (- s) (2 * p * x + b)); [assumption|]. nra.
  - intros [H1 H2]. assert ((2 * p * x + b) * (2 * p * x + b) <= s * s) by nra. nra.
Qed.
Definition via_up (h A D v : R) : R :=
  let b := 2 * (h * v) + A * (h * h) in
  let c := v * v - 2 * A * (D - h * v) in
  let d := b * b - 2 * (2 * (h * h)) * c in
  Rmax (if Rle_dec 0 d then (- b + sqrt d) / (2 * (h * h)) else - v / h) (- v / h).
(** Not beyond the limit: at the end of the step the joint goes away from the limit or
    can still brake before it. *)
Lemma via_up_exact h A D v a : 0 < h -> 0 <= A ->
  (a <= via_up h A D v <->
   vel_at v a h <= 0 \/ vel_at v a h * vel_at v a h <= 2 * A * (D - (v * h + a * (h * h) / 2))).
Proof.
  intros Hh HA. assert (H2 : 0 < h * h) by (apply Rmult_lt_0_compat; assumption).
  unfold via_up. set (b := 2 * (h * v) + A * (h * h)). set (c := v * v - 2 * A * (D - h * v)).
  set (d := b * b - 2 * (2 * (h * h)) * c).
  assert (EQ : vel_at v a h * vel_at v a h <= 2 * A * (D - (v * h + a * (h * h) / 2)) <-> (h * h) * (a * a) + b * a + c <= 0).
  { unfold vel_at, b, c. split; intros; nra. }
  assert (ES : a <= - v / h <-> vel_at v a h <= 0).
  { unfold vel_at. split; intros H.
    - apply Rmult_le_compat_r with (r := h) in H; [|lra]. unfold Rdiv in H. rewrite Rmult_assoc, Rinv_l in H by lra. lra.
    - apply Rmult_le_reg_r with h; [lra|]. unfold Rdiv. rewrite Rmult_assoc, Rinv_l by lra. lra. }
  rewrite EQ, le_max, ES. destruct (Rle_dec 0 d) as [Hd|Hd].
  - assert (BR := between_roots (h * h) b c a (sqrt d) H2 (sqrt_pos d)).
    rewrite sqrt_sqrt in BR by exact Hd. specialize (BR ltac:(unfold d; ring)). rewrite BR. split.
    + intros [H|H]; [|left; exact H]. destruct (Rle_dec (vel_at v a h) 0) as [G|G]; [left; exact G|]. right. split; [|exact H].
      apply Rle_trans with (- v / h).
      * assert (S0 := sqrt_pos d). apply Rmult_le_reg_r with (2 * (h * h)); [lra|].
        replace ((- b - sqrt d) / (2 * (h * h)) * (2 * (h * h))) with (- b - sqrt d) by (field; lra).
        replace (- v / h * (2 * (h * h))) with (- (2 * (h * v))) by (field; lra). unfold b. nra.
      * destruct (Rle_dec a (- v / h)) as [X|X]; [apply ES in X; lra|lra].
    + intros [H|H]; [right; exact H|left; apply H].
  - split.
    + intros [H|H]; left; [apply ES; exact H|exact H].
    + intros [H|H]; [left; apply ES; exact H|]. exfalso. apply Hd. unfold d.
      assert (0 <= (2 * (h * h) * a + b) * (2 * (h * h) * a + b)) by apply Rle_0_sqr. nra.
Qed.
Lemma via_lim_up h A (qmin qmax q v : R) :
  snd (@via_lim Rnum rsqrt h (h * h) (2 * (h * h)) A qmin qmax q v) = via_up h A (qmax - q) v.
Proof.
  unfold via_lim, via_up. cbn [snd]. rewrite two_R. cbn [Rnum nleb nsub nadd nmul ndiv nopp n0]. rewrite nmax_R.
  replace (qmax - (q + h * v)) with (qmax - q - h * v) by ring.
  unfold Rleb. destruct (Rle_dec 0 _); reflexivity.
Qed.
Lemma via_lim_low h A (qmin qmax q v : R) : 0 < h ->
  - fst (@via_lim Rnum rsqrt h (h * h) (2 * (h * h)) A qmin qmax q v) = via_up h A (q - qmin) (- v).
Proof.
  intros Hh. assert (H2 : 0 < h * h) by (apply Rmult_lt_0_compat; assumption).
  unfold via_lim, via_up. cbn [fst]. rewrite two_R. cbn [Rnum nleb nsub nadd nmul ndiv nopp n0]. rewrite nmin_R.
  set (b := 2 * (h * v) - A * (h * h)). replace (2 * (h * - v) + A * (h * h)) with (- b) by (unfold b; ring).
  replace (- v * - v - 2 * A * (q - qmin - h * - v)) with (v * v - 2 * A * (q + h * v - qmin)) by ring.
  set (c := v * v - _). replace (- b * - b - 2 * (2 * (h * h)) * c) with (b * b - 2 * (2 * (h * h)) * c) by ring.
  set (d := b * b - _). unfold Rleb.
  assert (E1 : (- - b + sqrt d) / (2 * (h * h)) = - ((- b - sqrt d) / (2 * (h * h)))) by (field; lra).
  assert (E2 : - - v / h = - (- v / h)) by (field; lra).
  rewrite E1, E2. destruct (Rle_dec 0 d); unfold Rmin, Rmax; repeat (destruct (Rle_dec _ _)); lra.
Qed.
(** After the step: away from both limits or able to brake. *)
Definition via_ok (h A qmin qmax q v a : R) : Prop :=
  (vel_at v a h <= 0 \/ vel_at v a h * vel_at v a h <= 2 * A * (qmax - pos_at q v a h)) /\
  (0 <= vel_at v a h \/ vel_at v a h * vel_at v a h <= 2 * A * (pos_at q v a h - qmin)).
Theorem via_lim_exact h A (qmin qmax q v a : R) : 0 < h -> 0 <= A ->
  (within (@via_lim Rnum rsqrt h (h * h) (2 * (h * h)) A qmin qmax q v) a <-> via_ok h A qmin qmax q v a).
Proof.
  intros Hh HA. unfold within, via_ok. rewrite (via_lim_up h A qmin qmax q v).
  assert (EL := via_lim_low h A qmin qmax q v Hh).
  assert (L : fst (@via_lim Rnum rsqrt h (h * h) (2 * (h * h)) A qmin qmax q v) <= a <-> - a <= via_up h A (q - qmin) (- v)) by (rewrite <- EL; lra).
  rewrite L, !via_up_exact by assumption.
  replace (vel_at (- v) (- a) h) with (- vel_at v a h) by (unfold vel_at; ring).
  replace (qmax - q - (v * h + a * (h * h) / 2)) with (qmax - pos_at q v a h) by (unfold pos_at; ring).
  replace (q - qmin - (- v * h + - a * (h * h) / 2)) with (pos_at q v a h - qmin) by (unfold pos_at; field).
  rewrite Rmult_opp_opp. assert (- vel_at v a h <= 0 <-> 0 <= vel_at v a h) by lra. tauto.
Qed.

(** ** Velocity and acceleration limits *)
Theorem vel_lim_exact h (m v a : R) : 0 < h ->
  (within (@vel_lim Rnum true h m v) a <-> - m <= vel_at v a h <= m).
Proof.
  intros Hh. unfold within, vel_lim, vel_at. cbn [fst snd Rnum nsub ndiv nopp]. split.
  - intros [A B]. apply Rmult_le_compat_r with (r := h) in A; [|lra]. apply Rmult_le_compat_r with (r := h) in B; [|lra].
    unfold Rdiv in *. rewrite Rmult_assoc, Rinv_l in A, B by lra. lra.
  - intros [A B]. split; apply Rmult_le_reg_r with h; try lra; unfold Rdiv; rewrite Rmult_assoc, Rinv_l by lra; lra.
Qed.
(** ** Conflict resolution *)
Theorem resolve_exact (p w x y : Rnum * Rnum) a0 : within p a0 -> within w a0 -> within x a0 -> within y a0 ->
  forall a, within (@resolve Rnum p w x y) a <-> within p a /\ within w a /\ within x a /\ within y a.
Proof.
  intros P W X Y a. unfold within in *. unfold resolve. cbn [Rnum nltb].
  replace (Rltb _ _) with false.
  2:{ symmetry. apply Rltb_false. rewrite !nmax_R, !nmin_R, !max_le, !le_min.
      destruct P, W, X, Y. lra. }
  cbn [fst snd]. rewrite !nmax_R, !nmin_R, !max_le, !le_min. tauto.
Qed.
