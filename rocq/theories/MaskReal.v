(** Masks over the reals: the truncated sum of a 0/1 mask is the number of active
    joints. *)
From Coq Require Import List Arith Bool ZArith Reals Lia Lra.
From Verif Require Import Scalar Outcome Linalg RSum Masks.
Import ListNotations.
Open Scope nat_scope.

(** static_cast of a double to an integer type: rounding toward zero. *)
Definition Rtrunc (r : Rnum) : Z := if Rle_dec 0 r then Int_part r else (- Int_part (- r))%Z.
Lemma Rtrunc_INR n : Rtrunc (INR n) = Z.of_nat n.
Proof.
  unfold Rtrunc. destruct (Rle_dec 0 (INR n)) as [_|H]; [|destruct H; apply pos_INR]. apply Int_part_INR.
Qed.
Lemma mask_sum (m : vec Rnum) : mask01 m -> forall k, k <= vlen m ->
  rsum k (vget m) = INR (length (filter (is_on m) (seq 0 k))).
Proof.
  intros H. induction k as [|k IH]; intros Hk; [reflexivity|].
  replace (S k) with (k + 1) at 2 by lia. rewrite seq_app, filter_app, app_length, plus_INR, rsum_S, IH by lia. f_equal.
  cbn [Nat.add seq filter]. unfold is_on. destruct (H k ltac:(lia)) as [E|E].
  - rewrite E. cbn [negb length INR]. apply Reqb_true in E. exact E.
  - apply Reqb_true in E. change (@n1 Rnum) with 1%R in E. rewrite E.
    replace (@neqb Rnum 1%R n0) with false; [reflexivity|]. symmetry. apply Reqb_false. change (@n0 Rnum) with 0%R. lra.
Qed.
Lemma mask_counted (m : vec Rnum) : mask01 m -> counted Rtrunc m.
Proof. intros H. unfold counted. rewrite mask_sum by (assumption || lia). apply Rtrunc_INR. Qed.
(** The mask with all joints. *)
Definition ones (m : vec Rnum) : Prop := forall i, i < vlen m -> vget m i = 1%R.
Lemma ones_01 m : ones m -> mask01 m.
Proof. intros H i Hi. right. apply Reqb_true. rewrite H by exact Hi. reflexivity. Qed.
Lemma ones_actives m : ones m -> actives m = seq 0 (vlen m).
Proof.
  intros H. unfold actives. assert (G : forall l, (forall i, In i l -> i < vlen m) -> filter (is_on m) l = l).
  { induction l as [|a l IH]; intros HL; [reflexivity|]. cbn [filter]. unfold is_on at 1. rewrite H by (apply HL; left; reflexivity).
    replace (@neqb Rnum 1%R n0) with false; [cbn [negb]; rewrite IH; [reflexivity|intros; apply HL; right; assumption]|].
    symmetry. apply Reqb_false. change (@n0 Rnum) with 0%R. lra. }
  apply G. intros i Hi. apply in_seq in Hi. lia.
Qed.
