(** Second-order error dynamics on rotations. Pure mathematics, used by OrientLoop.v. *)
From Coq Require Import Reals Lra Lia.
From Verif Require Import LinearLoop.
Open Scope R_scope.

(** * Vectors and matrices of size three *)
Definition dot3 (x y : nat -> R) : R := x 0%nat * y 0%nat + x 1%nat * y 1%nat + x 2%nat * y 2%nat.
Definition cross3 (x y : nat -> R) : nat -> R := fun i =>
  match i with
  | 0%nat => x 1%nat * y 2%nat - x 2%nat * y 1%nat
  | 1%nat => x 2%nat * y 0%nat - x 0%nat * y 2%nat
  | _ => x 0%nat * y 1%nat - x 1%nat * y 0%nat
  end.
Definition trace3 (A : nat -> nat -> R) : R := A 0%nat 0%nat + A 1%nat 1%nat + A 2%nat 2%nat.
Definition det3 (A : nat -> nat -> R) : R := dot3 (A 0%nat) (cross3 (A 1%nat) (A 2%nat)).
(** Axial vector of the skew part. *)
Definition vee3 (A : nat -> nat -> R) : nat -> R := fun i =>
  match i with
  | 0%nat => (A 2%nat 1%nat - A 1%nat 2%nat) / 2
  | 1%nat => (A 0%nat 2%nat - A 2%nat 0%nat) / 2
  | _ => (A 1%nat 0%nat - A 0%nat 1%nat) / 2
  end.
Definition rows3 (A : nat -> nat -> R) : Prop :=
  dot3 (A 0%nat) (A 0%nat) = 1 /\ dot3 (A 1%nat) (A 1%nat) = 1 /\ dot3 (A 2%nat) (A 2%nat) = 1 /\
  dot3 (A 0%nat) (A 1%nat) = 0 /\ dot3 (A 0%nat) (A 2%nat) = 0 /\ dot3 (A 1%nat) (A 2%nat) = 0.
(** A Bᵀ and Aᵀ B. *)
Definition mul_tr (A B : nat -> nat -> R) : nat -> nat -> R := fun i j => dot3 (A i) (B j).
Definition tr_mul (A B : nat -> nat -> R) : nat -> nat -> R := fun i j => dot3 (fun k => A k i) (fun k => B k j).
Definition app3 (A : nat -> nat -> R) (x : nat -> R) : nat -> R := fun i => dot3 (A i) x.

Ltac names A := set (A 0%nat 0%nat) in *; set (A 0%nat 1%nat) in *; set (A 0%nat 2%nat) in *; set (A 1%nat 0%nat) in *; set (A 1%nat 1%nat) in *;
  set (A 1%nat 2%nat) in *; set (A 2%nat 0%nat) in *; set (A 2%nat 1%nat) in *; set (A 2%nat 2%nat) in *.

Lemma square_0 x : x * x = 0 -> x = 0.
Proof. intros H. destruct (Rmult_integral _ _ H); assumption. Qed.
Lemma sum_squares x y z : x * x + y * y + z * z = 0 -> x = 0 /\ y = 0 /\ z = 0.
Proof.
  intros H. assert (A := Rle_0_sqr x). assert (B := Rle_0_sqr y). assert (C := Rle_0_sqr z). unfold Rsqr in *.
  repeat split; apply square_0; lra.
Qed.
Lemma unit_cross a0 a1 a2 b0 b1 b2 c0 c1 c2 :
  a0 * a0 + a1 * a1 + a2 * a2 = 1 -> b0 * b0 + b1 * b1 + b2 * b2 = 1 -> c0 * c0 + c1 * c1 + c2 * c2 = 1 ->
  b0 * c0 + b1 * c1 + b2 * c2 = 0 -> a0 * (b1 * c2 - b2 * c1) + a1 * (b2 * c0 - b0 * c2) + a2 * (b0 * c1 - b1 * c0) = 1 ->
  a0 = b1 * c2 - b2 * c1 /\ a1 = b2 * c0 - b0 * c2 /\ a2 = b0 * c1 - b1 * c0.
Proof.
  intros A B C BC D.
  destruct (sum_squares (a0 - (b1 * c2 - b2 * c1)) (a1 - (b2 * c0 - b0 * c2)) (a2 - (b0 * c1 - b1 * c0))) as (X & Y & Z); [|lra].
  transitivity ((a0 * a0 + a1 * a1 + a2 * a2) - 2 * (a0 * (b1 * c2 - b2 * c1) + a1 * (b2 * c0 - b0 * c2) + a2 * (b0 * c1 - b1 * c0))
    + ((b0 * b0 + b1 * b1 + b2 * b2) * (c0 * c0 + c1 * c1 + c2 * c2) - (b0 * c0 + b1 * c1 + b2 * c2) * (b0 * c0 + b1 * c1 + b2 * c2))); [ring|].
  rewrite A, B, C, BC, D. ring.
Qed.
(** A rotation is its own matrix of cofactors. *)
Lemma cofactors A : rows3 A -> det3 A = 1 -> forall i, (i < 3)%nat ->
  A 0%nat i = cross3 (A 1%nat) (A 2%nat) i /\ A 1%nat i = cross3 (A 2%nat) (A 0%nat) i /\ A 2%nat i = cross3 (A 0%nat) (A 1%nat) i.
Proof.
  intros (A0 & A1 & A2 & A01 & A02 & A12) D i Hi. unfold det3, dot3, cross3 in *.
  assert (X := unit_cross _ _ _ _ _ _ _ _ _ A0 A1 A2 A12 D).
  names A.
  assert (Y : r2 = r6 * r1 - r7 * r0 /\ r3 = r7 * r - r5 * r1 /\ r4 = r5 * r0 - r6 * r) by (apply unit_cross; lra).
  assert (Z : r5 = r0 * r4 - r1 * r3 /\ r6 = r1 * r2 - r * r4 /\ r7 = r * r3 - r0 * r2) by (apply unit_cross; lra).
  destruct i as [|[|[|i]]]; [| | |lia]; tauto.
Qed.
Lemma sine_square A : rows3 A -> det3 A = 1 -> dot3 (vee3 A) (vee3 A) = 1 - ((trace3 A - 1) / 2) * ((trace3 A - 1) / 2).
Proof.
  intros HR D. assert (C := cofactors A HR D). destruct HR as (A0 & A1 & A2 & _). unfold dot3, vee3, trace3 in *.
  assert (C0 := proj1 (C 0%nat ltac:(lia))). assert (C1 := proj1 (proj2 (C 1%nat ltac:(lia)))). assert (C2 := proj2 (proj2 (C 2%nat ltac:(lia)))). unfold cross3 in *.
  names A. lra.
Qed.
Lemma det_mul_tr A B : det3 (mul_tr A B) = det3 A * det3 B.
Proof. unfold det3, mul_tr, cross3, dot3. ring. Qed.
Lemma trace_swap A B : trace3 (mul_tr B A) = trace3 (tr_mul A B).
Proof. unfold trace3, tr_mul, mul_tr, dot3. ring. Qed.
(** Both orders. *)
Definition orth3 (A : nat -> nat -> R) : Prop := rows3 A /\ rows3 (fun i j => A j i).
Lemma mul_tr_rows A B : rows3 A -> rows3 (fun i j => B j i) -> rows3 (mul_tr A B).
Proof.
  intros HA (B0 & B1 & B2 & B01 & B02 & B12).
  assert (G : forall i j, dot3 (mul_tr A B i) (mul_tr A B j) = dot3 (A i) (A j)).
  { intros i j. unfold mul_tr, dot3 in *. names B. set (A i 0%nat) in *. set (A i 1%nat) in *. set (A i 2%nat) in *. set (A j 0%nat) in *. set (A j 1%nat) in *. set (A j 2%nat) in *.
    transitivity (r8 * r11 * (r * r + r2 * r2 + r5 * r5) + r9 * r12 * (r0 * r0 + r3 * r3 + r6 * r6) + r10 * r13 * (r1 * r1 + r4 * r4 + r7 * r7)
      + (r8 * r12 + r9 * r11) * (r * r0 + r2 * r3 + r5 * r6) + (r8 * r13 + r10 * r11) * (r * r1 + r2 * r4 + r5 * r7) + (r9 * r13 + r10 * r12) * (r0 * r1 + r3 * r4 + r6 * r7)); [ring|].
    rewrite B0, B1, B2, B01, B02, B12. ring. }
  unfold rows3. rewrite !G. exact HA.
Qed.
Lemma app3_norm A x : rows3 (fun i j => A j i) -> dot3 (app3 A x) (app3 A x) = dot3 x x.
Proof.
  intros (B0 & B1 & B2 & B01 & B02 & B12). unfold app3, dot3 in *. names A. set (x 0%nat). set (x 1%nat). set (x 2%nat).
  transitivity (r8 * r8 * (r * r + r2 * r2 + r5 * r5) + r9 * r9 * (r0 * r0 + r3 * r3 + r6 * r6) + r10 * r10 * (r1 * r1 + r4 * r4 + r7 * r7)
      + 2 * r8 * r9 * (r * r0 + r2 * r3 + r5 * r6) + 2 * r8 * r10 * (r * r1 + r2 * r4 + r5 * r7) + 2 * r9 * r10 * (r0 * r1 + r3 * r4 + r6 * r7)); [ring|].
  rewrite B0, B1, B2, B01, B02, B12. ring.
Qed.

(** The axial vector turns with the matrix. *)
Lemma vee_turn Q A : rows3 Q -> rows3 (fun i j => Q j i) -> det3 Q = 1 -> forall i, (i < 3)%nat -> app3 Q (vee3 (tr_mul Q A)) i = vee3 (mul_tr A Q) i.
Proof.
  intros HR HC D i Hi. assert (C := cofactors Q HR D).
  assert (C0 := C 0%nat ltac:(lia)). assert (C1 := C 1%nat ltac:(lia)). assert (C2 := C 2%nat ltac:(lia)). clear C.
  (* Q vee (Qᵀ A) = vee (Q (Qᵀ A) Qᵀ) *)
  assert (E : forall u v, (u < 3)%nat -> (v < 3)%nat -> mul_tr A Q u v = dot3 (Q u) (fun k => dot3 (fun l => tr_mul Q A k l) (Q v))).
  { intros u v Hu Hv. destruct HR as (B0 & B1 & B2 & B01 & B02 & B12). unfold mul_tr, tr_mul, dot3 in *.
    destruct u as [|[|[|u]]]; [| | |lia].
    - transitivity ((Q 0%nat 0%nat * Q 0%nat 0%nat + Q 0%nat 1%nat * Q 0%nat 1%nat + Q 0%nat 2%nat * Q 0%nat 2%nat) * (A 0%nat 0%nat * Q v 0%nat + A 0%nat 1%nat * Q v 1%nat + A 0%nat 2%nat * Q v 2%nat)
       + (Q 0%nat 0%nat * Q 1%nat 0%nat + Q 0%nat 1%nat * Q 1%nat 1%nat + Q 0%nat 2%nat * Q 1%nat 2%nat) * (A 1%nat 0%nat * Q v 0%nat + A 1%nat 1%nat * Q v 1%nat + A 1%nat 2%nat * Q v 2%nat)
       + (Q 0%nat 0%nat * Q 2%nat 0%nat + Q 0%nat 1%nat * Q 2%nat 1%nat + Q 0%nat 2%nat * Q 2%nat 2%nat) * (A 2%nat 0%nat * Q v 0%nat + A 2%nat 1%nat * Q v 1%nat + A 2%nat 2%nat * Q v 2%nat)); [rewrite B0, B01, B02; ring|ring].
    - transitivity ((Q 0%nat 0%nat * Q 1%nat 0%nat + Q 0%nat 1%nat * Q 1%nat 1%nat + Q 0%nat 2%nat * Q 1%nat 2%nat) * (A 0%nat 0%nat * Q v 0%nat + A 0%nat 1%nat * Q v 1%nat + A 0%nat 2%nat * Q v 2%nat)
       + (Q 1%nat 0%nat * Q 1%nat 0%nat + Q 1%nat 1%nat * Q 1%nat 1%nat + Q 1%nat 2%nat * Q 1%nat 2%nat) * (A 1%nat 0%nat * Q v 0%nat + A 1%nat 1%nat * Q v 1%nat + A 1%nat 2%nat * Q v 2%nat)
       + (Q 1%nat 0%nat * Q 2%nat 0%nat + Q 1%nat 1%nat * Q 2%nat 1%nat + Q 1%nat 2%nat * Q 2%nat 2%nat) * (A 2%nat 0%nat * Q v 0%nat + A 2%nat 1%nat * Q v 1%nat + A 2%nat 2%nat * Q v 2%nat)); [rewrite B1, B01, B12; ring|ring].
    - transitivity ((Q 0%nat 0%nat * Q 2%nat 0%nat + Q 0%nat 1%nat * Q 2%nat 1%nat + Q 0%nat 2%nat * Q 2%nat 2%nat) * (A 0%nat 0%nat * Q v 0%nat + A 0%nat 1%nat * Q v 1%nat + A 0%nat 2%nat * Q v 2%nat)
       + (Q 1%nat 0%nat * Q 2%nat 0%nat + Q 1%nat 1%nat * Q 2%nat 1%nat + Q 1%nat 2%nat * Q 2%nat 2%nat) * (A 1%nat 0%nat * Q v 0%nat + A 1%nat 1%nat * Q v 1%nat + A 1%nat 2%nat * Q v 2%nat)
       + (Q 2%nat 0%nat * Q 2%nat 0%nat + Q 2%nat 1%nat * Q 2%nat 1%nat + Q 2%nat 2%nat * Q 2%nat 2%nat) * (A 2%nat 0%nat * Q v 0%nat + A 2%nat 1%nat * Q v 1%nat + A 2%nat 2%nat * Q v 2%nat)); [rewrite B2, B02, B12; ring|ring]. }
  assert (G : forall E0, app3 (fun a b => match a with 0%nat => cross3 (Q 1%nat) (Q 2%nat) b | 1%nat => cross3 (Q 2%nat) (Q 0%nat) b | _ => cross3 (Q 0%nat) (Q 1%nat) b end) (vee3 E0) i
     = vee3 (fun u v => dot3 (Q u) (fun k => dot3 (fun l => E0 k l) (Q v))) i).
  { intros E0. destruct i as [|[|[|i]]]; [| | |lia]; unfold app3, vee3, dot3, cross3; field. }
  specialize (G (tr_mul Q A)).
  transitivity (app3 (fun a b => match a with 0%nat => cross3 (Q 1%nat) (Q 2%nat) b | 1%nat => cross3 (Q 2%nat) (Q 0%nat) b | _ => cross3 (Q 0%nat) (Q 1%nat) b end) (vee3 (tr_mul Q A)) i).
  - unfold app3. set (z := vee3 (tr_mul Q A)). unfold dot3.
    destruct C0 as (C00 & C01 & C02), C1 as (C10 & C11 & C12), C2 as (C20 & C21 & C22).
    destruct i as [|[|[|i]]]; [| | |lia]; [rewrite <- C00, <- C10, <- C20|rewrite <- C01, <- C11, <- C21|rewrite <- C02, <- C12, <- C22]; reflexivity.
  - rewrite G. destruct i as [|[|[|i]]]; [| | |lia]; unfold vee3; rewrite !E by lia; reflexivity.
Qed.

(** * Bounds on the angle *)
Lemma sin_low x : 0 <= x <= PI / 2 -> x / 2 <= sin x.
Proof.
  intros H. assert (P := PI_RGT_0).
  assert (L : forall y, 0 <= y <= PI / 4 -> y * cos (PI / 4) <= sin y).
  { intros y Hy. assert (K : y * cos (PI / 4) - sin y <= 0 * cos (PI / 4) - sin 0).
    { apply (decreasing_derivative (fun z => z * cos (PI / 4) - sin z) (fun z => cos (PI / 4) - cos z) 0 y (proj1 Hy)).
      - intros c _. eapply deriv_val; [apply deriv_minus; [apply deriv_mult; [apply derivable_pt_lim_id|apply deriv_const]|apply derivable_pt_lim_sin]|]. cbv beta. ring.
      - intros c Hc. assert (cos (PI / 4) <= cos c) by (apply cos_decr_1; lra). lra. }
    rewrite sin_0 in K. lra. }
  replace x with (2 * (x / 2)) at 2 by field. rewrite sin_2a. specialize (L (x / 2) ltac:(lra)).
  assert (C : cos (PI / 4) <= cos (x / 2)) by (apply cos_decr_1; lra).
  assert (S : cos (PI / 4) * cos (PI / 4) = 1 / 2).
  { assert (S := sin2_cos2 (PI / 4)). unfold Rsqr in S. rewrite sin_cos_PI4 in S. lra. }
  assert (C0 : 0 < cos (PI / 4)) by (apply cos_gt_0; lra).
  assert (K : x / 2 * cos (PI / 4) * cos (PI / 4) <= sin (x / 2) * cos (x / 2)) by (apply Rmult_le_compat; [apply Rmult_le_pos| | |]; lra).
  rewrite Rmult_assoc, S in K. lra.
Qed.
Lemma cos_high x : 0 <= x <= PI -> x * x <= 8 * (1 - cos x).
Proof.
  intros H. assert (S := sin_low (x / 2) ltac:(lra)). replace (cos x) with (1 - 2 * sin (x / 2) * sin (x / 2)); [nra|].
  rewrite <- cos_2a_sin. f_equal. field.
Qed.
Lemma acos_sq x : acos x * acos x <= 8 * Rabs (1 - x).
Proof.
  assert (B := acos_bound x). assert (P4 := PI_4). destruct (Rle_dec x 1) as [L|G].
  - rewrite Rabs_right by lra. destruct (Rle_dec (-1) x) as [L1|G1].
    + rewrite <- (cos_acos x) at 3 by lra. apply cos_high, B.
    + nra.
  - unfold acos. destruct (Rle_dec x (-1)); [lra|]. destruct (Rle_dec 1 x); [|lra]. assert (0 <= Rabs (1 - x)) by apply Rabs_pos. lra.
Qed.
Lemma sin_wide m x : 0 <= x <= m -> m < PI -> cos (m / 2) / 2 * x <= sin x.
Proof.
  intros H M. assert (S := sin_low (x / 2) ltac:(lra)). assert (C : cos (m / 2) <= cos (x / 2)) by (apply cos_decr_1; lra).
  assert (0 < cos (m / 2)) by (apply cos_gt_0; lra). replace (sin x) with (2 * sin (x / 2) * cos (x / 2)); [nra|].
  rewrite <- sin_2a. f_equal. field.
Qed.
Lemma sin_up x : 0 <= x -> sin x <= x.
Proof. intros H. destruct (Req_dec x 0) as [->|N]; [rewrite sin_0; lra|]. left. apply sin_lt_x. lra. Qed.

(** * Derivative of the squared angle *)
Lemma acos_deriv x : -1 < x < 1 -> derivable_pt_lim acos x (- / sin (acos x)).
Proof.
  intros H. assert (E := derive_pt_acos x H). destruct (derivable_pt_acos x H) as [l Hl] eqn:DD. cbn in E. subst l.
  eapply deriv_val; [exact Hl|]. rewrite sin_acos by lra. unfold Rdiv. ring.
Qed.
Lemma square_angle_deriv (c : R -> R) t l : derivable_pt_lim c t l -> -1 < c t <= 1 -> (c t = 1 -> l = 0) ->
  derivable_pt_lim (fun u => acos (c u) * acos (c u)) t (- (2 * acos (c t) / sin (acos (c t)) * l)).
Proof.
  intros D B Z. destruct (Req_dec (c t) 1) as [E|N].
  - rewrite (Z E) in *. rewrite E, acos_1. apply deriv_val with (l := 0); [|ring].
    intros eps He. destruct (D (eps / 8)) as (d & Hd); [lra|]. exists d. intros h Hh Hb. specialize (Hd h Hh Hb). rewrite E in *. rewrite acos_1.
    assert (A := acos_sq (c (t + h))). rewrite !Rminus_0_r in *. unfold Rdiv in *. rewrite Rabs_mult in *.
    rewrite Rmult_0_l, Rminus_0_r. rewrite (Rabs_right (_ * _)) by (apply Rle_ge, Rle_0_sqr).
    rewrite Rabs_minus_sym in A. assert (0 <= Rabs (/ h)) by apply Rabs_pos. assert (acos (c (t + h)) * acos (c (t + h)) * Rabs (/ h) <= 8 * Rabs (c (t + h) - 1) * Rabs (/ h)) by (apply Rmult_le_compat_r; assumption). lra.
  - assert (DA : derivable_pt_lim (fun u => acos (c u)) t (- / sin (acos (c t)) * l)).
    { apply (derivable_pt_lim_comp c acos); [exact D|]. apply acos_deriv. lra. }
    eapply deriv_val; [apply deriv_mult; exact DA|]. unfold Rdiv. ring.
Qed.

(** * A quantity that never falls to a level *)
Lemma bootstrap (c : R -> R) b : (forall t, 0 <= t -> continuity_pt c t) -> b < c 0 ->
  (forall u, 0 <= u -> (forall v, 0 <= v <= u -> b <= c v) -> b < c u) -> forall t, 0 <= t -> b < c t.
Proof.
  intros C C0 H t Ht. destruct (Rlt_dec b (c t)) as [|N]; [assumption|]. exfalso.
  pose (E := fun u => 0 <= u <= t /\ forall v, 0 <= v <= u -> b <= c v).
  assert (E0 : E 0) by (split; [lra|]; intros v Hv; replace v with 0 by lra; lra).
  destruct (completeness E) as (s & U & L); [exists t; intros u [Hu _]; lra|exists 0; exact E0|].
  assert (S0 : 0 <= s) by (apply U; exact E0). assert (S1 : s <= t) by (apply L; intros u [Hu _]; lra).
  assert (P : forall v, 0 <= v < s -> b <= c v).
  { intros v Hv. destruct (Rle_dec b (c v)) as [|G]; [assumption|]. exfalso. assert (s <= v); [|lra]. apply L. intros u [Hu Q]. destruct (Rle_dec u v); [assumption|]. exfalso. apply G, Q. lra. }
  assert (CS := C s S0).
  assert (near : forall e, 0 < e -> exists d, 0 < d /\ forall x, Rabs (x - s) < d -> Rabs (c x - c s) < e).
  { intros e He. destruct (CS e He) as (d & Hd & K). exists d. split; [exact Hd|]. intros x Hx. destruct (Req_dec s x) as [<-|Hne]; [rewrite Rminus_eq_0, Rabs_R0; exact He|].
    apply (K x). split; [split; [exact Logic.I|exact Hne]|exact Hx]. }
  assert (BS : b <= c s).
  { destruct (Rle_dec b (c s)) as [|G]; [assumption|]. exfalso. destruct (near (b - c s)) as (d & Hd & K); [lra|].
    assert (SP : 0 < s) by (destruct (Req_dec s 0) as [Z|]; [rewrite Z in G; lra|lra]).
    pose (x := Rmax 0 (s - d / 2)). assert (X1 : 0 <= x) by apply Rmax_l. assert (X2 : s - d / 2 <= x) by apply Rmax_r. assert (X3 : x < s) by (apply Rmax_lub_lt; lra).
    specialize (K x ltac:(rewrite Rabs_left; lra)). apply Rabs_def2 in K. specialize (P x ltac:(lra)). lra. }
  assert (ES : forall v, 0 <= v <= s -> b <= c v) by (intros v Hv; destruct (Req_dec v s) as [->|]; [exact BS|apply P; lra]).
  assert (BB := H s S0 ES). destruct (Req_dec s t) as [Z|NE]; [rewrite Z in BB; lra|].
  destruct (near (c s - b)) as (d & Hd & K); [lra|]. pose (x := Rmin t (s + d / 2)).
  assert (X1 : x <= t) by apply Rmin_l. assert (X2 : x <= s + d / 2) by apply Rmin_r. assert (X3 : s < x) by (apply Rmin_glb_lt; lra).
  assert (EX : E x).
  { split; [lra|]. intros v Hv. destruct (Rle_dec v s) as [|G]; [apply ES; lra|]. specialize (K v ltac:(rewrite Rabs_right; lra)). apply Rabs_def2 in K. lra. }
  specialize (U x EX). lra.
Qed.
