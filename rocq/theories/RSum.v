(** Finite sums of reals. *)
From Coq Require Import List Arith Bool Reals Lia Lra Permutation.
From Verif Require Import Scalar Linalg FormSpec FormPhysSpec.
Import ListNotations.
Open Scope nat_scope.

Notation rsum := (@nsum Rnum).

Lemma rsum_S n (f : nat -> R) : rsum (S n) f = (rsum n f + f n)%R.
Proof. reflexivity. Qed.
Lemma rsum_0 (f : nat -> R) : rsum 0 f = 0%R.
Proof. reflexivity. Qed.
#[local] Opaque nsum.
Lemma rsum_ext n (f g : nat -> R) : (forall i, i < n -> f i = g i) -> rsum n f = rsum n g.
Proof.
  induction n as [|n IH]; intros H; [reflexivity|]. rewrite !rsum_S, IH, H by auto. reflexivity.
Qed.
Lemma rsum_zero n (f : nat -> R) : (forall i, i < n -> f i = 0%R) -> rsum n f = 0%R.
Proof.
  induction n as [|n IH]; intros H; [reflexivity|]. rewrite rsum_S, IH, H by auto. lra.
Qed.
Lemma rsum_plus n (f g : nat -> R) : rsum n (fun i => f i + g i)%R = (rsum n f + rsum n g)%R.
Proof. induction n as [|n IH]; [rewrite !rsum_0; lra|]. rewrite !rsum_S, IH. lra. Qed.
Lemma rsum_minus n (f g : nat -> R) : rsum n (fun i => f i - g i)%R = (rsum n f - rsum n g)%R.
Proof. induction n as [|n IH]; [rewrite !rsum_0; lra|]. rewrite !rsum_S, IH. lra. Qed.
Lemma rsum_opp n (f : nat -> R) : rsum n (fun i => - f i)%R = (- rsum n f)%R.
Proof. induction n as [|n IH]; [rewrite !rsum_0; lra|]. rewrite !rsum_S, IH. lra. Qed.
Lemma rsum_scal n (a : R) (f : nat -> R) : rsum n (fun i => a * f i)%R = (a * rsum n f)%R.
Proof. induction n as [|n IH]; [rewrite !rsum_0; lra|]. rewrite !rsum_S, IH. lra. Qed.
Lemma rsum_scal_r n (a : R) (f : nat -> R) : rsum n (fun i => f i * a)%R = (rsum n f * a)%R.
Proof. induction n as [|n IH]; [rewrite !rsum_0; lra|]. rewrite !rsum_S, IH. lra. Qed.
Lemma rsum_swap n m (f : nat -> nat -> R) :
  rsum n (fun i => rsum m (fun j => f i j)) = rsum m (fun j => rsum n (fun i => f i j)).
Proof.
  induction n as [|n IH].
  - rewrite rsum_0, rsum_zero; auto.
  - rewrite rsum_S, IH, <- rsum_plus. apply rsum_ext. intros; rewrite rsum_S; reflexivity.
Qed.
Lemma rsum_app n m (f : nat -> R) : rsum (n + m) f = (rsum n f + rsum m (fun i => f (n + i)%nat))%R.
Proof.
  induction m as [|m IH].
  - rewrite Nat.add_0_r, rsum_0. lra.
  - rewrite Nat.add_succ_r, !rsum_S, IH. lra.
Qed.
Lemma rsum_nonneg n (f : nat -> R) : (forall i, i < n -> (0 <= f i)%R) -> (0 <= rsum n f)%R.
Proof.
  induction n as [|n IH]; intros H; [rewrite rsum_0; lra|]. rewrite rsum_S.
  assert (0 <= rsum n f)%R by (apply IH; auto). assert (0 <= f n)%R by auto. lra.
Qed.
Lemma rsum_single n k (f : nat -> R) : k < n -> (forall i, i < n -> i <> k -> f i = 0%R) -> rsum n f = f k.
Proof.
  induction n as [|n IH]; intros Hk H; [lia|]. rewrite rsum_S.
  destruct (Nat.eq_dec k n) as [->|Hn].
  - rewrite rsum_zero; [lra|]. intros; apply H; lia.
  - rewrite IH by (auto; lia). rewrite (H n) by lia. lra.
Qed.
(** Sum over a window of columns. *)
Lemma rsum_window N j0 n (g y : nat -> R) : j0 + n <= N ->
  rsum N (fun j => (if (j0 <=? j) && (j <? j0 + n) then g (j - j0)%nat else 0) * y j)%R
  = rsum n (fun r => g r * y (j0 + r)%nat)%R.
Proof.
  intros H. replace N with (j0 + (n + (N - j0 - n))) by lia. rewrite !rsum_app.
  rewrite (rsum_zero j0).
  2:{ intros i Hi. replace (j0 <=? i) with false by (symmetry; apply Nat.leb_gt; lia). simpl. lra. }
  rewrite (rsum_zero (N - j0 - n)).
  2:{ intros i Hi. replace (j0 + (n + i) <? j0 + n) with false by (symmetry; apply Nat.ltb_ge; lia).
      rewrite andb_false_r. lra. }
  rewrite (rsum_ext n _ (fun r => g r * y (j0 + r)%nat)%R); [lra|].
  intros i Hi. replace (j0 <=? j0 + i) with true by (symmetry; apply Nat.leb_le; lia).
  replace (j0 + i <? j0 + n) with true by (symmetry; apply Nat.ltb_lt; lia). simpl.
  replace (j0 + i - j0) with i by lia. reflexivity.
Qed.

Lemma lsum_cons {A} (f : A -> R) a l : lsum f (a :: l) = (f a + lsum f l)%R.
Proof. reflexivity. Qed.
Lemma lsum_ext {A} (f g : A -> R) l : (forall a, In a l -> f a = g a) -> lsum f l = lsum g l.
Proof.
  induction l as [|a l IH]; intros H; [reflexivity|]. rewrite !lsum_cons, IH, H; auto using in_eq, in_cons.
Qed.
Lemma lsum_app {A} (f : A -> R) l l' : lsum f (l ++ l') = (lsum f l + lsum f l')%R.
Proof. induction l as [|a l IH]; [unfold lsum; simpl; lra|]. simpl. rewrite !lsum_cons, IH. lra. Qed.
Lemma lsum_perm {A} (f : A -> R) l l' : Permutation l l' -> lsum f l = lsum f l'.
Proof. induction 1; rewrite ?lsum_cons; lra. Qed.
Lemma lsum_scal {A} (f : A -> R) (a : R) l : lsum (fun x => a * f x)%R l = (a * lsum f l)%R.
Proof. induction l as [|x l IH]; [unfold lsum; simpl; lra|]. rewrite !lsum_cons, IH. lra. Qed.
Lemma lsum_plus {A} (f g : A -> R) l : lsum (fun x => f x + g x)%R l = (lsum f l + lsum g l)%R.
Proof. induction l as [|x l IH]; [unfold lsum; simpl; lra|]. rewrite !lsum_cons, IH. lra. Qed.
Lemma rsum_lsum {A} n (f : nat -> A -> R) l :
  rsum n (fun i => lsum (f i) l) = lsum (fun a => rsum n (fun i => f i a)) l.
Proof.
  induction l as [|a l IH].
  - rewrite rsum_zero; reflexivity.
  - rewrite lsum_cons, <- IH, <- rsum_plus. reflexivity.
Qed.
Lemma lsum_map {A B} (g : A -> B) (f : B -> R) l : lsum f (map g l) = lsum (fun a => f (g a)) l.
Proof. unfold lsum. rewrite map_map. reflexivity. Qed.

(** Sum over consecutive blocks. *)
Lemma tiles_rsum (l : list (nat * nat)) : forall a b (g : nat -> R), tiles a l b ->
  rsum b g = (rsum a g + lsum (fun p : nat * nat => rsum (snd p) (fun r => g (fst p + r)%nat)) l)%R.
Proof.
  induction l as [|[o n] l IH]; intros a b g H; simpl in H.
  - subst. unfold lsum; simpl. lra.
  - destruct H as [-> H]. rewrite lsum_cons, (IH _ _ g H), rsum_app. simpl. lra.
Qed.
