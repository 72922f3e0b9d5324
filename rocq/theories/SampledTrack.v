(** Facts about a sampled double integrator that follows a smooth signal under critically damped
    feedback.  Pure mathematics, used by JointTrack.v. *)
From Coq Require Import Reals Lra Lia.
From Verif Require Import LinearLoop.
Open Scope R_scope.

(** * Taylor remainders *)
(** A signal with three derivatives, the third one bounded. *)
Definition thrice (x x1 x2 : R -> R) (B : R) : Prop := exists x3, forall t, 0 <= t ->
  derivable_pt_lim x t (x1 t) /\ derivable_pt_lim x1 t (x2 t) /\ derivable_pt_lim x2 t (x3 t) /\ Rabs (x3 t) <= B.
Lemma deriv_shift f t h l : derivable_pt_lim f (t + h) l -> derivable_pt_lim (fun s => f (t + s)) h l.
Proof.
  intros H eps He. destruct (H eps He) as (d & Hd). exists d. intros k K1 K2. replace (t + (h + k)) with (t + h + k) by ring. apply Hd; assumption.
Qed.
Lemma deriv_pow k h : derivable_pt_lim (fun s => s ^ S k) h (INR (S k) * h ^ k).
Proof. apply (derivable_pt_lim_pow h (S k)). Qed.
Lemma deriv_scal c f h l : derivable_pt_lim f h l -> derivable_pt_lim (fun s => c * f s) h (c * l).
Proof. intros H. eapply deriv_val; [apply (deriv_mult (fun _ => c)); [apply deriv_const|exact H]|]. ring. Qed.
(** From a bound on the derivative to a bound on the function. *)
Lemma integrate_bound (F f G g : R -> R) h : 0 <= h -> F 0 = 0 -> G 0 = 0 ->
  (forall s, 0 <= s <= h -> derivable_pt_lim F s (f s)) -> (forall s, 0 <= s <= h -> derivable_pt_lim G s (g s)) ->
  (forall s, 0 <= s <= h -> Rabs (f s) <= g s) -> Rabs (F h) <= G h.
Proof.
  intros Hh F0 G0 DF DG B.
  assert (U : F h - G h <= F 0 - G 0).
  { apply (decreasing_derivative (fun s => F s - G s) (fun s => f s - g s)); [exact Hh| |].
    - intros s Hs. apply deriv_minus; [apply DF|apply DG]; exact Hs.
    - intros s Hs. assert (X := B s Hs). assert (Y := Rle_abs (f s)). lra. }
  assert (L : - F h - G h <= - F 0 - G 0).
  { apply (decreasing_derivative (fun s => - F s - G s) (fun s => - f s - g s)); [exact Hh| |].
    - intros s Hs. apply deriv_minus; [|apply DG; exact Hs]. apply (derivable_pt_lim_opp F). apply DF. exact Hs.
    - intros s Hs. assert (X := B s Hs). assert (Y := Rle_abs (- f s)). rewrite Rabs_Ropp in Y. lra. }
  rewrite F0, G0 in *. apply Rabs_le. lra.
Qed.
Lemma taylor x x1 x2 B t h : thrice x x1 x2 B -> 0 <= t -> 0 <= h ->
  Rabs (x2 (t + h) - x2 t) <= B * h /\
  Rabs (x1 (t + h) - x1 t - h * x2 t) <= B * (h * h) / 2 /\
  Rabs (x (t + h) - x t - h * x1 t - h * h / 2 * x2 t) <= B * (h * h * h) / 6.
Proof.
  intros (x3 & D) Ht Hh.
  assert (D0 : forall s, derivable_pt_lim (fun u => u) s 1) by (intros s; apply derivable_pt_lim_id).
  assert (B1 : forall s, 0 <= s -> Rabs (x2 (t + s) - x2 t) <= B * s).
  { intros s0 Hs0. apply (integrate_bound (fun s => x2 (t + s) - x2 t) (fun s => x3 (t + s)) (fun s => B * s) (fun _ => B)); try lra.
    - rewrite Rplus_0_r. lra.
    - intros s Hs. eapply deriv_val; [apply deriv_minus; [apply deriv_shift; apply (D (t + s)); lra|apply deriv_const]|]. ring.
    - intros s Hs. eapply deriv_val; [apply (deriv_scal B (fun u => u)), D0|]. ring.
    - intros s Hs. apply (D (t + s)). lra. }
  assert (D1 : forall s, derivable_pt_lim (fun u => u * u) s (2 * s)).
  { intros s. eapply deriv_val; [apply (deriv_mult (fun u => u) (fun u => u)); apply D0|]. ring. }
  assert (D2 : forall s, derivable_pt_lim (fun u => u * u * u) s (3 * (s * s))).
  { intros s. eapply deriv_val; [apply (deriv_mult (fun u => u * u) (fun u => u)); [apply D1|apply D0]|]. ring. }
  assert (B2 : forall s, 0 <= s -> Rabs (x1 (t + s) - x1 t - s * x2 t) <= B * (s * s) / 2).
  { intros s0 Hs0. apply (integrate_bound (fun s => x1 (t + s) - x1 t - s * x2 t) (fun s => x2 (t + s) - x2 t) (fun s => B * (s * s) / 2) (fun s => B * s)); try lra.
    - rewrite Rplus_0_r. lra.
    - intros s Hs. eapply deriv_val; [apply deriv_minus; [apply deriv_minus; [apply deriv_shift; apply (D (t + s)); lra|apply deriv_const]|apply (deriv_mult (fun u => u) (fun _ => x2 t)); [apply D0|apply deriv_const]]|]. ring.
    - intros s Hs. apply (deriv_ext (fun u => B / 2 * (u * u))); [intros u; field|]. eapply deriv_val; [apply (deriv_scal _ (fun u => u * u)), D1|]. field.
    - intros s Hs. apply B1. lra. }
  split; [apply B1; exact Hh|]. split; [apply B2; exact Hh|].
  apply (integrate_bound (fun s => x (t + s) - x t - s * x1 t - s * s / 2 * x2 t) (fun s => x1 (t + s) - x1 t - s * x2 t) (fun s => B * (s * s * s) / 6) (fun s => B * (s * s) / 2)); try lra.
  - rewrite Rplus_0_r. lra.
  - intros s Hs. apply (deriv_ext (fun u => x (t + u) - x t - u * x1 t - x2 t / 2 * (u * u))); [intros u; field|].
    eapply deriv_val; [apply deriv_minus; [apply deriv_minus; [apply deriv_minus; [apply deriv_shift; apply (D (t + s)); lra|apply deriv_const]|apply (deriv_mult (fun u => u) (fun _ => x1 t)); [apply D0|apply deriv_const]]|apply (deriv_scal _ (fun u => u * u)), D1]|]. field.
  - intros s Hs. apply (deriv_ext (fun u => B / 6 * (u * u * u))); [intros u; field|]. eapply deriv_val; [apply (deriv_scal _ (fun u => u * u * u)), D2|]. field.
  - intros s Hs. apply B2. lra.
Qed.

(** * The recurrence *)
(** Error [e] and [u] = error plus rate of the error divided by the natural frequency; [th] is the
    natural frequency times the period, [c] the part of the feedback that reaches the joint. *)
Lemma abs_lin a b p q x y m n : 0 <= a -> Rabs b <= q -> a <= p -> Rabs x <= m -> Rabs y <= n -> Rabs (a * x + b * y) <= p * m + q * n.
Proof.
  intros Ha Hb Hp Hx Hy. apply Rle_trans with (1 := Rabs_triang _ _). rewrite !Rabs_mult, (Rabs_right a) by lra.
  assert (0 <= Rabs x) by apply Rabs_pos. assert (0 <= Rabs y) by apply Rabs_pos. assert (0 <= Rabs b) by apply Rabs_pos.
  apply Rplus_le_compat; apply Rmult_le_compat; lra.
Qed.
Lemma bounded_track th c de du (e u f h : nat -> R) : 0 < th <= 1 / 2 -> 7 / 8 <= c <= 1 ->
  (forall n, e (S n) = (1 - th + c * (th * th) / 2) * e n + (th - c * (th * th)) * u n + f n) ->
  (forall n, u (S n) = (1 + th - 2 * (c * th) - c * (th * th)) * u n + (c * th - th + c * (th * th) / 2) * e n + h n) ->
  (forall n, Rabs (f n) <= de) -> (forall n, Rabs (h n) <= du) ->
  forall n, Rabs (e n) <= (1 - th / 2) ^ n * Rmax (Rabs (e 0%nat)) (2 * Rabs (u 0%nat)) + 2 * (de + du) / th /\
            Rabs (u n) <= (1 - th / 2) ^ n * Rmax (Rabs (e 0%nat)) (2 * Rabs (u 0%nat)) / 2 + (2 * du + de) / th.
Proof.
  intros Ht Hc RE RU BF BH.
  assert (PE : 0 <= de) by (apply Rle_trans with (2 := BF 0%nat); apply Rabs_pos). assert (PU : 0 <= du) by (apply Rle_trans with (2 := BH 0%nat); apply Rabs_pos).
  set (N := Rmax (Rabs (e 0%nat)) (2 * Rabs (u 0%nat))). assert (N0 : 0 <= N) by (apply Rle_trans with (2 := Rmax_l _ _); apply Rabs_pos).
  set (m := de / th). set (s := du / th).
  assert (M : de = th * m) by (unfold m; field; lra). assert (Sx : du = th * s) by (unfold s; field; lra).
  assert (M0 : 0 <= m) by (apply Rmult_le_pos; [exact PE|left; apply Rinv_0_lt_compat; lra]).
  assert (S0 : 0 <= s) by (apply Rmult_le_pos; [exact PU|left; apply Rinv_0_lt_compat; lra]).
  replace (2 * (de + du) / th) with (2 * (m + s)) by (unfold m, s; field; lra).
  replace ((2 * du + de) / th) with (2 * s + m) by (unfold m, s; field; lra).
  assert (T2 : 0 <= th * th <= th / 2) by nra. assert (C1 : 7 / 8 * th <= c * th <= th) by nra. assert (C2 : 0 <= c * (th * th) <= th * th) by nra.
  set (a := th * th) in *. set (b := c * th) in *. assert (EA : c * a = b * th) by (unfold a, b; ring). set (d := c * a) in *.
  induction n as [|n [IE IU]].
  - rewrite pow_O. assert (X := Rmax_l (Rabs (e 0%nat)) (2 * Rabs (u 0%nat))). assert (Y := Rmax_r (Rabs (e 0%nat)) (2 * Rabs (u 0%nat))). fold N in X, Y. lra.
  - set (r := (1 - th / 2) ^ n * N) in *. assert (R0 : 0 <= r) by (apply Rmult_le_pos; [apply pow_le; lra|exact N0]).
    replace ((1 - th / 2) ^ S n * N) with ((1 - th / 2) * r) by (unfold r; simpl; ring).
    set (k1 := th * r) in *. assert (K1 : 0 <= k1) by (apply Rmult_le_pos; lra).
    split.
    + rewrite RE. apply Rle_trans with (1 := Rabs_triang _ _).
      assert (X := abs_lin (1 - th + d / 2) (th - d) (1 - th + d / 2) (th - d) (e n) (u n) _ _ ltac:(lra) ltac:(rewrite Rabs_right; lra) ltac:(lra) IE IU).
      assert (Y := BF n). rewrite M in Y.
      assert (Z : (1 - th + d / 2) * (r + 2 * (m + s)) + (th - d) * (r / 2 + (2 * s + m)) + th * m = (1 - th / 2) * r + 2 * (m + s) - d * s) by field.
      assert (0 <= d * s) by (apply Rmult_le_pos; lra). lra.
    + rewrite RU. apply Rle_trans with (1 := Rabs_triang _ _).
      assert (X := abs_lin (1 + th - 2 * b - d) (b - th + d / 2) (1 + th - 2 * b - d) (th - b + d / 2) (u n) (e n) _ _ ltac:(lra) ltac:(apply Rabs_le; lra) ltac:(lra) IU IE).
      assert (Y := BH n). rewrite Sx in Y.
      assert (Z : (1 + th - 2 * b - d) * (r / 2 + (2 * s + m)) + (th - b + d / 2) * (r + 2 * (m + s)) + th * s =
        (1 - th / 2) * r / 2 + (2 * s + m) - (2 * b - 7 / 4 * th) * r - (6 * b - 5 * th) * s - (4 * b - 3 * th) * m - d * s) by field.
      assert (0 <= (2 * b - 7 / 4 * th) * r) by (apply Rmult_le_pos; lra). assert (0 <= (6 * b - 5 * th) * s) by (apply Rmult_le_pos; lra).
      assert (0 <= (4 * b - 3 * th) * m) by (apply Rmult_le_pos; lra). assert (0 <= d * s) by (apply Rmult_le_pos; lra). lra.
Qed.
