(** isFinite and is_nan of include/tsid/math/utils.hpp ("ut") on IEEE binary64 numbers. *)
From Coq Require Import Arith Bool ZArith Reals Lia Lra.
From Flocq Require Import Core BinarySingleNaN.
Open Scope nat_scope.

(** double and its operations: Flocq's binary64 with any rounding mode [md]. *)
Definition f64 := binary_float 53 1024.
Definition f64_sub (md : mode) (x y : f64) : f64 := @Bminus 53 1024 eq_refl eq_refl md x y.
Definition f64_eq (x y : f64) : bool := Beqb x y.
(** Matrix of doubles, and .all() over its entries. *)
Record fmat := mkFmat { f_rows : nat; f_cols : nat; f_get : nat -> nat -> f64 }.
Definition upto (n : nat) (p : nat -> bool) : bool := List.forallb p (List.seq 0 n).
Definition all_entries (p : f64 -> bool) (M : fmat) : bool := upto (f_rows M) (fun i => upto (f_cols M) (fun j => p (f_get M i j))).
(** ut:124-127. *)
Definition isFinite (md : mode) (M : fmat) : bool := all_entries (fun x => f64_eq (f64_sub md x x) (f64_sub md x x)) M.
(** ut:129-132. *)
Definition is_nan_code (M : fmat) : bool := all_entries (fun x => f64_eq x x) M.

(** Specification. *)
Definition entry (M : fmat) (x : f64) : Prop := exists i j, i < f_rows M /\ j < f_cols M /\ f_get M i j = x.
Lemma upto_iff n p : upto n p = true <-> forall i, i < n -> p i = true.
Proof.
  unfold upto. rewrite List.forallb_forall. split; intros H i Hi; [apply H, List.in_seq; lia|apply List.in_seq in Hi; apply H; lia].
Qed.
Lemma all_iff p M : all_entries p M = true <-> forall x, entry M x -> p x = true.
Proof.
  unfold all_entries, entry. rewrite upto_iff. split.
  - intros H x (i & j & Hi & Hj & <-). specialize (H i Hi). rewrite upto_iff in H. exact (H j Hj).
  - intros H i Hi. rewrite upto_iff. intros j Hj. apply H. exists i, j. auto.
Qed.
Lemma sub_self md (x : f64) : is_nan (f64_sub md x x) = negb (is_finite x).
Proof.
  destruct (is_finite x) eqn:F.
  - assert (H := @Bminus_correct 53 1024 eq_refl eq_refl md x x F F). rewrite Rminus_diag_eq in H by reflexivity. rewrite round_0 in H by (destruct md; apply valid_rnd_round_mode). rewrite Rabs_R0 in H.
    rewrite Rlt_bool_true in H by apply bpow_gt_0. destruct H as (_ & H & _). unfold f64_sub. destruct (@Bminus 53 1024 eq_refl eq_refl md x x); try reflexivity; discriminate H.
  - destruct x as [b|b| |b m e p]; try discriminate F; [|destruct md; reflexivity]. destruct b, md; reflexivity.
Qed.
Theorem isFinite_true md M : isFinite md M = true <-> forall x, entry M x -> is_finite x = true.
Proof.
  unfold isFinite. rewrite all_iff. split; intros H x Hx; specialize (H x Hx); unfold f64_eq in *; rewrite Beqb_refl, sub_self, negb_involutive in *; exact H.
Qed.
Theorem is_nan_inverted M : is_nan_code M = true <-> forall x, entry M x -> is_nan x = false.
Proof.
  unfold is_nan_code. rewrite all_iff. split; intros H x Hx; specialize (H x Hx); unfold f64_eq in *; rewrite Beqb_refl in *; [apply negb_true_iff; exact H|rewrite H; reflexivity].
Qed.
Theorem is_nan_refuted : (exists M, is_nan_code M = true /\ forall x, entry M x -> is_nan x = false) /\ (exists M x, entry M x /\ is_nan x = true /\ is_nan_code M = false).
Proof.
  split.
  - exists (mkFmat 1 1 (fun _ _ => B754_zero false)). assert (H : forall x, entry (mkFmat 1 1 (fun _ _ => B754_zero false)) x -> is_nan x = false) by (intros x (i & j & _ & _ & <-); reflexivity). split; [apply is_nan_inverted; exact H|exact H].
  - exists (mkFmat 1 1 (fun _ _ => B754_nan)), B754_nan. split; [exists 0, 0; auto|]. split; reflexivity.
Qed.
