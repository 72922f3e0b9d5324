(** Dense vectors and matrices with dynamic sizes, as used through Eigen
    (include/tsid/math/fwd.hpp:22-23: Vector, Matrix).  A value is a size and an
    entry function; entries outside the size are meaningless.  Block assignments
    check the sizes as [eigen_assert] does and fail with [None]. *)
From Coq Require Import List Arith Bool.
From Verif Require Import Scalar Outcome.
Import ListNotations.

Section Linalg.
Context {K : num}.

Record vec := mkVec { vlen : nat; vget : nat -> K }.
Record mat := mkMat { mrows : nat; mcols : nat; mget : nat -> nat -> K }.

Fixpoint nsum (n : nat) (f : nat -> K) : K :=
  match n with
  | O => n0
  | S n' => (nsum n' f + f n')%num
  end.

Definition vzero n : vec := mkVec n (fun _ => n0).
Definition mzero r c : mat := mkMat r c (fun _ _ => n0).
Definition mident r c : mat := mkMat r c (fun i j => if i =? j then n1 else n0).

Definition vopp (v : vec) : vec := mkVec (vlen v) (fun i => (- vget v i)%num).
Definition mopp (m : mat) : mat := mkMat (mrows m) (mcols m) (fun i j => (- mget m i j)%num).
Definition mtr (m : mat) : mat := mkMat (mcols m) (mrows m) (fun i j => mget m j i).

(** Size-checked sums and products. *)
Definition vadd (u v : vec) : option vec :=
  if vlen u =? vlen v then Some (mkVec (vlen u) (fun i => (vget u i + vget v i)%num)) else None.
Definition vsub (u v : vec) : option vec :=
  if vlen u =? vlen v then Some (mkVec (vlen u) (fun i => (vget u i - vget v i)%num)) else None.
Definition mmul (a b : mat) : option mat :=
  if mcols a =? mrows b then
    Some (mkMat (mrows a) (mcols b)
            (fun i j => nsum (mcols a) (fun k => (mget a i k * mget b k j)%num)))
  else None.
Definition mvec (a : mat) (v : vec) : option vec :=
  if mcols a =? vlen v then
    Some (mkVec (mrows a) (fun i => nsum (mcols a) (fun k => (mget a i k * vget v k)%num)))
  else None.

(** Blocks: head/tail/segment, topRows/bottomRows/leftCols/rightCols/middleRows. *)
Definition vsegment (v : vec) (i n : nat) : option vec :=
  if i + n <=? vlen v then Some (mkVec n (fun k => vget v (i + k))) else None.
Definition vhead v n := vsegment v 0 n.
Definition vtail (v : vec) n : option vec :=
  if n <=? vlen v then vsegment v (vlen v - n) n else None.
Definition mrowsblk (m : mat) (i n : nat) : option mat :=
  if i + n <=? mrows m then Some (mkMat n (mcols m) (fun a b => mget m (i + a) b)) else None.
Definition mcolsblk (m : mat) (j n : nat) : option mat :=
  if j + n <=? mcols m then Some (mkMat (mrows m) n (fun a b => mget m a (j + b))) else None.
Definition mtop m n := mrowsblk m 0 n.
Definition mbottom (m : mat) n := if n <=? mrows m then mrowsblk m (mrows m - n) n else None.
Definition mleft m n := mcolsblk m 0 n.
Definition mright (m : mat) n := if n <=? mcols m then mcolsblk m (mcols m - n) n else None.

(** m.middleCols(j,n) = b *)
Definition mset_cols (m : mat) (j n : nat) (b : mat) : option mat :=
  if (j + n <=? mcols m) && (mcols b =? n) && (mrows b =? mrows m) then
    Some (mkMat (mrows m) (mcols m)
            (fun r c => if (j <=? c) && (c <? j + n) then mget b r (c - j) else mget m r c))
  else None.
(** m.leftCols(n) = b, m.rightCols(n) = b *)
Definition mset_left m n b := mset_cols m 0 n b.
Definition mset_right (m : mat) n b :=
  if n <=? mcols m then mset_cols m (mcols m - n) n b else None.
(** m.middleRows(i,n) = b *)
Definition mset_rows (m : mat) (i n : nat) (b : mat) : option mat :=
  if (i + n <=? mrows m) && (mrows b =? n) && (mcols b =? mcols m) then
    Some (mkMat (mrows m) (mcols m)
            (fun r c => if (i <=? r) && (r <? i + n) then mget b (r - i) c else mget m r c))
  else None.
(** v.segment(i,n) = u *)
Definition vset_seg (v : vec) (i n : nat) (u : vec) : option vec :=
  if (i + n <=? vlen v) && (vlen u =? n) then
    Some (mkVec (vlen v) (fun r => if (i <=? r) && (r <? i + n) then vget u (r - i) else vget v r))
  else None.

(** Entrywise equality. *)
Definition veq (u v : vec) : Prop := vlen u = vlen v /\ forall i, i < vlen u -> vget u i = vget v i.
Definition meq (a b : mat) : Prop :=
  mrows a = mrows b /\ mcols a = mcols b /\
  forall i j, i < mrows a -> j < mcols a -> mget a i j = mget b i j.

Lemma veq_refl v : veq v v. Proof. split; auto. Qed.
Lemma meq_refl m : meq m m. Proof. repeat split; auto. Qed.
Lemma veq_sym u v : veq u v -> veq v u.
Proof. intros [H1 H2]; split; [auto|]. intros i Hi; symmetry; apply H2; rewrite H1; exact Hi. Qed.
Lemma meq_sym u v : meq u v -> meq v u.
Proof.
  intros (H1 & H2 & H3); split; [auto|split;[auto|]].
  intros i j Hi Hj; symmetry; apply H3; congruence.
Qed.
Lemma veq_trans u v w : veq u v -> veq v w -> veq u w.
Proof.
  intros [H1 H2] [H3 H4]; split; [congruence|].
  intros i Hi; rewrite H2 by exact Hi; apply H4; congruence.
Qed.
Lemma meq_trans u v w : meq u v -> meq v w -> meq u w.
Proof.
  intros (H1 & H2 & H3) (H4 & H5 & H6); split; [congruence|split;[congruence|]].
  intros i j Hi Hj; rewrite H3 by assumption; apply H6; congruence.
Qed.

Lemma nsum_ext n f g : (forall i, i < n -> f i = g i) -> nsum n f = nsum n g.
Proof.
  induction n as [|n IH]; intros H; simpl; [reflexivity|].
  rewrite IH by (intros; apply H; auto with arith). rewrite H by auto. reflexivity.
Qed.

End Linalg.
Arguments vec : clear implicits.
Arguments mat : clear implicits.
