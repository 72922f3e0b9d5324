(** solveWithDampingFromSvd, pseudoInverse, dampedPseudoInverse and
    nullSpaceBasisFromDecomposition of src/math/utils.cpp ("ut").  Eigen::JacobiSVD is an
    oracle: its result [svd] is an argument, and the theorems suppose that it is a singular
    value decomposition ([is_svd]). *)
From Coq Require Import List Arith Bool ZArith Reals Lia Lra.
From Verif Require Import Scalar Outcome Linalg RSum.
Import ListNotations.
Open Scope list_scope.
Open Scope nat_scope.

Section SV.
Context {K : num}.
(** matrixU(), singularValues() and their number, matrixV(), nonzeroSingularValues().
    U and V are thin or full: their first [s_k] columns are the singular vectors. *)
Record svd := mkSvd { s_U : nat -> nat -> K; s_s : nat -> K; s_V : mat K; s_k : nat; s_nz : nat }.
(** V.leftCols(k) diag(f) U.leftCols(k)^T (ut:113-115, 151-153). *)
Definition vdu (D : svd) (f : nat -> K) : nat -> nat -> K := fun i j => nsum (s_k D) (fun k => (mget (s_V D) i k * f k * s_U D j k)%num).
(** tolerance > 0 && singularValues(idx) > tolerance (ut:104, 171). *)
Definition kept (tol : K) (D : svd) (k : nat) : bool := (n0 <? tol)%num && (tol <? s_s D k)%num.
(** The inverted singular values (ut:103-110). *)
Definition inv_sv (tol : K) (D : svd) (k : nat) : K := if kept tol D k then (n1 / s_s D k)%num else n0.
(** The variable rank (ut:102-106, 169-174). *)
Definition sv_rank (tol : K) (D : svd) : nat := length (filter (kept tol D) (seq 0 (s_k D))).
(** nullSpaceBasisFromDecomposition with a rank (ut:179-189): the target is a map with
    V.cols() rows, to which rightCols of V is assigned; sizes are asserted by Eigen. *)
Definition null_basis (D : svd) (rank : nat) : option (mat K) :=
  do _ <- guard ((rank <=? mcols (s_V D)) && (mrows (s_V D) =? mcols (s_V D)));
  Some (mkMat (mcols (s_V D)) (mcols (s_V D) - rank) (fun i c => mget (s_V D) i (rank + c))).
(** nullSpaceBasisFromDecomposition with a tolerance (ut:163-177). *)
Definition null_basis_tol (D : svd) (tol : K) : option (mat K) := null_basis D (sv_rank tol D).
(** pseudoInverse (ut:88-122; the overloads ut:70-86 pass no null space buffer).  [opts] =
    false: computationOptions = 0.  [ns]: a buffer is given and computationOptions has
    ComputeFullV; the second result is the null space basis.  The matrix [P] is passed as
    Ref: assigning another size is an assertion failure. *)
Definition pseudo_inverse (opts ns : bool) (A : mat K) (D : svd) (tol : K) (P : mat K) : option (mat K * option (mat K)) :=
  if opts then
    do _ <- guard ((mrows P =? mcols A) && (mcols P =? mrows A));
    do B <- (if ns then do b <- null_basis D (sv_rank tol D); Some (Some b) else Some None);
    Some (mkMat (mcols A) (mrows A) (vdu D (inv_sv tol D)), B)
  else Some (P, None).
(** dampedPseudoInverse (ut:124-161) without null space output.  [NaN]: some quotient is
    0 / 0, so that every entry of the product is not a number. *)
Inductive entries := Numbers (P : mat K) | NaN.
Definition damp_sv (d : K) (D : svd) (k : nat) : K := (s_s D k / (s_s D k * s_s D k + d * d))%num.
Definition damped_inverse (opts : bool) (A : mat K) (D : svd) (d : K) (P : mat K) : option entries :=
  if opts then
    do _ <- guard ((mrows P =? mcols A) && (mcols P =? mrows A));
    Some (if existsb (fun k => (s_s D k * s_s D k + d * d =? n0)%num) (seq 0 (s_k D)) then NaN
          else Numbers (mkMat (mcols A) (mrows A) (vdu D (damp_sv d D))))
  else Some (Numbers P).
(** solveWithDampingFromSvd (ut:43-59), svd.rows() = m = b.size(): only the first
    nonzeroSingularValues() columns are used. *)
Definition damped_solve (m : nat) (D : svd) (d : K) (b : nat -> K) (i : nat) : K :=
  nsum (s_nz D) (fun k => (mget (s_V D) i k * (nsum m (fun j => s_U D j k * b j) * (s_s D k / (s_s D k * s_s D k + d * d))))%num).
End SV.
Arguments svd : clear implicits.

Ltac rring := match goal with |- @eq _ ?a ?b => change (@eq R a b) end; ring.
Ltac rfield := match goal with |- @eq _ ?a ?b => change (@eq R a b) end; field.
Notation rsvd := (svd Rnum).
Definition delta (a b : nat) : R := if a =? b then 1%R else 0%R.
(** Orthonormal columns. *)
Definition ortho (m k : nat) (U : nat -> nat -> R) : Prop := forall a b, a < k -> b < k -> rsum m (fun i => U i a * U i b)%R = delta a b.
(** A = U diag(s) V^T with the non-zero singular values first. *)
Definition is_svd (A : mat Rnum) (D : rsvd) : Prop :=
  (forall i j, i < mrows A -> j < mcols A -> mget A i j = rsum (s_k D) (fun k => s_U D i k * s_s D k * mget (s_V D) j k)%R) /\
  ortho (mrows A) (s_k D) (s_U D) /\ ortho (mcols A) (s_k D) (mget (s_V D)) /\ (forall k, k < s_k D -> (0 <= s_s D k)%R) /\
  s_nz D <= s_k D /\ (forall k, k < s_k D -> (s_s D k <> 0%R <-> k < s_nz D)).
(** ComputeFullV: V is a square orthogonal matrix. *)
Definition full_v (A : mat Rnum) (D : rsvd) : Prop :=
  mrows (s_V D) = mcols A /\ mcols (s_V D) = mcols A /\ s_k D <= mcols A /\ ortho (mcols A) (mcols A) (mget (s_V D)) /\
  forall i j, i < mcols A -> j < mcols A -> rsum (mcols A) (fun q => mget (s_V D) i q * mget (s_V D) j q)%R = delta i j.
(** No singular value in (0, tol]. *)
Definition separated (tol : R) (D : rsvd) : Prop := (0 < tol)%R /\ forall k, k < s_k D -> s_s D k = 0%R \/ (tol < s_s D k)%R.
(** Matrix product. *)
Definition mprod (n : nat) (X Y : nat -> nat -> R) : nat -> nat -> R := fun i j => rsum n (fun l => X i l * Y l j)%R.
Definition udv (k : nat) (U : nat -> nat -> R) (f : nat -> R) (V : nat -> nat -> R) : nat -> nat -> R := fun i j => rsum k (fun q => U i q * f q * V j q)%R.
Lemma rsum_delta k f a : a < k -> rsum k (fun b => delta a b * f b)%R = f a.
Proof.
  intros H. rewrite (rsum_single k a).
  - unfold delta. rewrite Nat.eqb_refl. apply Rmult_1_l.
  - exact H.
  - intros b Hb Hne. unfold delta. destruct (Nat.eqb_spec a b); [congruence|rring].
Qed.
Lemma udv_mul n k U f V g W i j : ortho n k V -> mprod n (udv k U f V) (udv k V g W) i j = udv k U (fun q => f q * g q)%R W i j.
Proof.
  intros HV. unfold mprod, udv.
  transitivity (rsum n (fun l => rsum k (fun a => rsum k (fun b => (U i a * f a * g b * W j b) * (V l a * V l b))))%R).
  { apply rsum_ext. intros l _. rewrite <- rsum_scal_r. apply rsum_ext. intros a _. rewrite <- rsum_scal. apply rsum_ext. intros b _. rring. }
  rewrite rsum_swap. apply rsum_ext. intros a Ha. rewrite rsum_swap.
  transitivity (rsum k (fun b => delta a b * (U i a * f a * g b * W j b))%R).
  { apply rsum_ext. intros b Hb. rewrite rsum_scal, (HV a b Ha Hb). rring. }
  rewrite rsum_delta by exact Ha. rring.
Qed.
Lemma udv_ext k U f g V i j : (forall q, q < k -> f q = g q) -> udv k U f V i j = udv k U g V i j.
Proof. intros H. unfold udv. apply rsum_ext. intros q Hq. rewrite (H q Hq). reflexivity. Qed.
Lemma udv_sym k U f V i j : udv k U f V i j = udv k V f U j i.
Proof. unfold udv. apply rsum_ext. intros. rring. Qed.
Lemma mprod_ext n X X' Y Y' i j : (forall l, l < n -> X i l = X' i l /\ Y l j = Y' l j) -> mprod n X Y i j = mprod n X' Y' i j.
Proof. intros H. unfold mprod. apply rsum_ext. intros l Hl. destruct (H l Hl) as [-> ->]. reflexivity. Qed.
(** The four Moore-Penrose conditions. *)
Definition moore_penrose (m n : nat) (A P : nat -> nat -> R) : Prop :=
  (forall i j, i < m -> j < n -> mprod m (mprod n A P) A i j = A i j) /\
  (forall i j, i < n -> j < m -> mprod n (mprod m P A) P i j = P i j) /\
  (forall i j, i < m -> j < m -> mprod n A P i j = mprod n A P j i) /\
  (forall i j, i < n -> j < n -> mprod m P A i j = mprod m P A j i).
Lemma mp_of_svd m n k U s V f (A P : nat -> nat -> R) : ortho m k U -> ortho n k V -> (forall q, q < k -> (s q * f q * s q = s q /\ f q * s q * f q = f q)%R) ->
  (forall i j, i < m -> j < n -> A i j = udv k U s V i j) -> (forall i j, i < n -> j < m -> P i j = udv k V f U i j) -> moore_penrose m n A P.
Proof.
  intros HU HV Hf HA HP.
  assert (AP : forall i j, i < m -> j < m -> mprod n A P i j = udv k U (fun q => s q * f q)%R U i j).
  { intros i j Hi Hj. rewrite <- (udv_mul n k U s V f U i j HV). apply mprod_ext. intros l Hl. split; [apply HA|apply HP]; assumption. }
  assert (PA : forall i j, i < n -> j < n -> mprod m P A i j = udv k V (fun q => f q * s q)%R V i j).
  { intros i j Hi Hj. rewrite <- (udv_mul m k V f U s V i j HU). apply mprod_ext. intros l Hl. split; [apply HP|apply HA]; assumption. }
  split; [|split; [|split]]; intros i j Hi Hj.
  - rewrite HA by assumption. transitivity (mprod m (udv k U (fun q => s q * f q)%R U) (udv k U s V) i j).
    + apply mprod_ext. intros l Hl. split; [apply AP|apply HA]; assumption.
    + rewrite udv_mul by exact HU. apply udv_ext. intros q Hq. apply (Hf q Hq).
  - rewrite HP by assumption. transitivity (mprod n (udv k V (fun q => f q * s q)%R V) (udv k V f U) i j).
    + apply mprod_ext. intros l Hl. split; [apply PA|apply HP]; assumption.
    + rewrite udv_mul by exact HV. apply udv_ext. intros q Hq. apply (Hf q Hq).
  - rewrite !AP by assumption. apply udv_sym.
  - rewrite !PA by assumption. apply udv_sym.
Qed.
Lemma mprod_assoc a b X Y Z i j : mprod b (mprod a X Y) Z i j = mprod a X (mprod b Y Z) i j.
Proof.
  unfold mprod. transitivity (rsum b (fun l => rsum a (fun q => X i q * Y q l * Z l j))%R).
  - apply rsum_ext. intros l _. rewrite <- rsum_scal_r. reflexivity.
  - rewrite rsum_swap. apply rsum_ext. intros q _. rewrite <- rsum_scal. apply rsum_ext. intros. rring.
Qed.
(** If A P and A Q are symmetric and A P A = A = A Q A, then A P = A Q. *)
Lemma mp_left m n A P Q : moore_penrose m n A P -> moore_penrose m n A Q -> forall i j, i < m -> j < m -> mprod n A P i j = mprod n A Q i j.
Proof.
  intros (P1 & _ & P3 & _) (Q1 & _ & Q3 & _) i j Hi Hj.
  transitivity (mprod m (mprod n A Q) (mprod n A P) i j).
  { rewrite <- mprod_assoc. apply mprod_ext. intros l Hl. split; [symmetry; apply Q1; assumption|reflexivity]. }
  transitivity (mprod m (mprod n A P) (mprod n A Q) j i).
  { unfold mprod at 1 4. apply rsum_ext. intros l Hl. rewrite (Q3 i l), (P3 l j) by assumption. rring. }
  rewrite Q3 by assumption. rewrite <- mprod_assoc. apply mprod_ext. intros l Hl. split; [apply P1; assumption|reflexivity].
Qed.
Lemma mp_right m n A P Q : moore_penrose m n A P -> moore_penrose m n A Q -> forall i j, i < n -> j < n -> mprod m P A i j = mprod m Q A i j.
Proof.
  intros (P1 & _ & _ & P4) (Q1 & _ & _ & Q4) i j Hi Hj.
  transitivity (mprod n (mprod m P A) (mprod m Q A) i j).
  { rewrite mprod_assoc. apply mprod_ext. intros l Hl. split; [reflexivity|]. rewrite <- mprod_assoc. symmetry. apply Q1; assumption. }
  transitivity (mprod n (mprod m Q A) (mprod m P A) j i).
  { unfold mprod at 1 4. apply rsum_ext. intros l Hl. rewrite (P4 i l), (Q4 l j) by assumption. rring. }
  rewrite Q4 by assumption. rewrite mprod_assoc. apply mprod_ext. intros l Hl. split; [reflexivity|]. rewrite <- mprod_assoc. apply P1; assumption.
Qed.
(** There is only one Moore-Penrose inverse. *)
Lemma mp_unique m n A P Q : moore_penrose m n A P -> moore_penrose m n A Q -> forall i j, i < n -> j < m -> P i j = Q i j.
Proof.
  intros HP HQ i j Hi Hj. destruct HP as (P1 & P2 & P3 & P4) eqn:EP. destruct HQ as (Q1 & Q2 & Q3 & Q4) eqn:EQ. rewrite <- P2, <- Q2 by assumption.
  transitivity (mprod n (mprod m Q A) P i j).
  - apply mprod_ext. intros l Hl. split; [apply (mp_right m n A P Q); assumption|reflexivity].
  - rewrite !mprod_assoc. apply mprod_ext. intros l Hl. split; [reflexivity|apply (mp_left m n A P Q); assumption].
Qed.
(** pseudoInverse is the Moore-Penrose inverse if no singular value is in (0, tol]. *)
Theorem pinv_moore_penrose (A : mat Rnum) (D : rsvd) (tol : R) (P0 : mat Rnum) : is_svd A D -> separated tol D -> mrows P0 = mcols A -> mcols P0 = mrows A ->
  exists P, @pseudo_inverse Rnum true false A D tol P0 = Some (P, None) /\ mrows P = mcols A /\ mcols P = mrows A /\ moore_penrose (mrows A) (mcols A) (mget A) (mget P) /\
    forall Q, moore_penrose (mrows A) (mcols A) (mget A) Q -> forall i j, i < mcols A -> j < mrows A -> mget P i j = Q i j.
Proof.
  intros (HA & HU & HV & HS & _) (Ht & Hk) R1 R2. unfold pseudo_inverse. rewrite R1, R2, !Nat.eqb_refl. cbn [andb guard obind]. eexists. split; [reflexivity|]. split; [reflexivity|]. split; [reflexivity|]. cbn [mget].
  assert (M : moore_penrose (mrows A) (mcols A) (mget A) (@vdu Rnum D (@inv_sv Rnum tol D))).
  { apply (mp_of_svd _ _ (s_k D) (s_U D) (s_s D) (mget (s_V D)) (@inv_sv Rnum tol D)); try assumption; [|intros; reflexivity].
    intros q Hq. unfold inv_sv, kept. assert (T : @nltb Rnum (@n0 Rnum) tol = true) by (apply Rltb_true; exact Ht). rewrite T. cbn [andb]. destruct (Hk q Hq) as [Z|Z].
    - assert (X : @nltb Rnum tol (s_s D q) = false) by (apply Rltb_false; rewrite Z; cbn; lra). rewrite X, Z. cbn. split; rring.
    - assert (X : @nltb Rnum tol (s_s D q) = true) by (apply Rltb_true; exact Z). rewrite X. cbn. split; rfield; lra. }
  split; [exact M|]. intros Q HQ i j Hi Hj. apply (mp_unique _ _ _ _ _ M HQ); assumption.
Qed.
(** With a tolerance that is not positive the result is zero. *)
Theorem pinv_no_tolerance (A : mat Rnum) (D : rsvd) (tol : R) (P0 P : mat Rnum) B : (tol <= 0)%R -> @pseudo_inverse Rnum true false A D tol P0 = Some (P, B) -> forall i j, mget P i j = 0%R.
Proof.
  intros Ht E i j. unfold pseudo_inverse in E. destruct (_ && _); [|discriminate]. cbn [guard obind] in E. injection E as <- _. cbn [mget]. unfold vdu.
  apply rsum_zero. intros k Hk. unfold inv_sv, kept. assert (T : @nltb Rnum (@n0 Rnum) tol = false) by (apply Rltb_false; exact Ht). rewrite T. cbn [andb]. cbn. rring.
Qed.
(** Without computation options the output is left alone. *)
Theorem pinv_no_options ns (A : mat Rnum) (D : rsvd) (tol : R) (P0 : mat Rnum) : @pseudo_inverse Rnum false ns A D tol P0 = Some (P0, None).
Proof. reflexivity. Qed.

(** * Damping *)
Definition sqn (n : nat) (x : nat -> R) : R := rsum n (fun i => x i * x i)%R.
Definition mvp (n : nat) (A : nat -> nat -> R) (x : nat -> R) (i : nat) : R := rsum n (fun j => A i j * x j)%R.
Definition tvp (m : nat) (A : nat -> nat -> R) (x : nat -> R) (j : nat) : R := rsum m (fun i => A i j * x i)%R.
(** |A x - b|^2 + d^2 |x|^2. *)
Definition damped_cost (m n : nat) (A : nat -> nat -> R) (b : nat -> R) (d : R) (x : nat -> R) : R := (sqn m (fun i => mvp n A x i - b i) + d * d * sqn n x)%R.
Lemma sqn_nonneg n x : (0 <= sqn n x)%R.
Proof. unfold sqn. induction n as [|n IH]; [cbn; lra|]. rewrite rsum_S. assert (0 <= x n * x n)%R by nra. lra. Qed.
Lemma sqn_plus n x y : sqn n (fun i => x i + y i)%R = (sqn n x + 2 * rsum n (fun i => x i * y i) + sqn n y)%R.
Proof.
  unfold sqn. transitivity (rsum n (fun i => x i * x i + 2 * (x i * y i) + y i * y i)%R); [apply rsum_ext; intros; rring|]. rewrite !rsum_plus, rsum_scal. reflexivity.
Qed.
Lemma adjoint m n A x y : rsum m (fun i => mvp n A x i * y i)%R = rsum n (fun j => x j * tvp m A y j)%R.
Proof.
  unfold mvp, tvp. transitivity (rsum m (fun i => rsum n (fun j => A i j * x j * y i))%R).
  - apply rsum_ext. intros i _. rewrite <- rsum_scal_r. reflexivity.
  - rewrite rsum_swap. apply rsum_ext. intros j _. rewrite <- rsum_scal. apply rsum_ext. intros. rring.
Qed.
(** Normal equations give the minimum. *)
Lemma normal_min m n A b d x : (forall j, j < n -> (tvp m A (fun i => mvp n A x i - b i) j + d * d * x j = 0)%R) ->
  forall y, damped_cost m n A b d y = (damped_cost m n A b d x + (sqn m (mvp n A (fun j => y j - x j)) + d * d * sqn n (fun j => y j - x j)))%R.
Proof.
  intros H y. unfold damped_cost. set (h := fun j => (y j - x j)%R).
  assert (E1 : sqn m (fun i => mvp n A y i - b i)%R = sqn m (fun i => mvp n A h i + (mvp n A x i - b i))%R).
  { unfold sqn. apply rsum_ext. intros i _. assert (X : mvp n A y i = (mvp n A h i + mvp n A x i)%R) by (unfold mvp, h; rewrite <- rsum_plus; apply rsum_ext; intros; rring). rewrite X. rring. }
  assert (E2 : sqn n y = sqn n (fun j => h j + x j)%R) by (unfold sqn, h; apply rsum_ext; intros; rring).
  rewrite E1, E2, !sqn_plus, adjoint.
  assert (X : (rsum n (fun j => h j * tvp m A (fun i => mvp n A x i - b i) j) + d * d * rsum n (fun j => h j * x j) = 0)%R).
  { rewrite <- rsum_scal, <- rsum_plus. apply rsum_zero. intros j Hj. transitivity (h j * (tvp m A (fun i => mvp n A x i - b i) j + d * d * x j))%R; [rring|]. rewrite (H j Hj). rring. }
  lra.
Qed.
Lemma mvp_udv n k U s V c i : ortho n k V -> mvp n (udv k U s V) (fun l => rsum k (fun q => V l q * c q)%R) i = rsum k (fun q => U i q * (s q * c q))%R.
Proof.
  intros HV. unfold mvp, udv. transitivity (rsum n (fun l => rsum k (fun a => rsum k (fun b => (U i a * s a * c b) * (V l a * V l b))))%R).
  { apply rsum_ext. intros l _. rewrite <- rsum_scal_r. apply rsum_ext. intros a _. rewrite <- rsum_scal. apply rsum_ext. intros b _. rring. }
  rewrite rsum_swap. apply rsum_ext. intros a Ha. rewrite rsum_swap. transitivity (rsum k (fun b => delta a b * (U i a * s a * c b))%R).
  { apply rsum_ext. intros b Hb. rewrite rsum_scal, (HV a b Ha Hb). rring. }
  rewrite rsum_delta by exact Ha. rring.
Qed.
Lemma tvp_udv m k U s V z j : tvp m (udv k U s V) z j = rsum k (fun q => V j q * (s q * rsum m (fun i => U i q * z i)))%R.
Proof.
  unfold tvp, udv. transitivity (rsum m (fun i => rsum k (fun q => V j q * s q * (U i q * z i)))%R).
  { apply rsum_ext. intros i _. rewrite <- rsum_scal_r. apply rsum_ext. intros. rring. }
  rewrite rsum_swap. apply rsum_ext. intros q _. rewrite rsum_scal. rring.
Qed.
(** x = V c with c_q = (s_q / (s_q^2 + d^2)) u_q . b solves the normal equations. *)
Lemma damped_normal m n k U s V b d c : ortho m k U -> ortho n k V -> (forall q, q < k -> ((s q * s q + d * d) * c q = s q * rsum m (fun i => U i q * b i))%R) ->
  forall j, (tvp m (udv k U s V) (fun i => mvp n (udv k U s V) (fun l => rsum k (fun q => V l q * c q)) i - b i) j + d * d * rsum k (fun q => V j q * c q) = 0)%R.
Proof.
  intros HU HV Hc j. rewrite tvp_udv, <- rsum_scal, <- rsum_plus. apply rsum_zero. intros q Hq.
  assert (X : rsum m (fun i => U i q * (mvp n (udv k U s V) (fun l => rsum k (fun q => V l q * c q)) i - b i))%R = (s q * c q - rsum m (fun i => U i q * b i))%R).
  { transitivity (rsum m (fun i => rsum k (fun a => (s a * c a) * (U i q * U i a)) - U i q * b i)%R).
    - apply rsum_ext. intros i _. rewrite mvp_udv by exact HV. rewrite Rmult_minus_distr_l, <- rsum_scal. f_equal. apply rsum_ext. intros. rring.
    - rewrite rsum_minus, rsum_swap. f_equal. transitivity (rsum k (fun a => delta q a * (s a * c a))%R); [|apply rsum_delta; exact Hq].
      apply rsum_ext. intros a Ha. rewrite rsum_scal, (HU q a Hq Ha). rring. }
  rewrite X. specialize (Hc q Hq). transitivity (V j q * ((s q * s q + d * d) * c q - s q * rsum m (fun i => U i q * b i)))%R; [rring|]. rewrite Hc. rring.
Qed.
Lemma rsum_cut a b f : a <= b -> (forall k, a <= k -> k < b -> f k = 0%R) -> rsum b f = rsum a f.
Proof.
  intros H Z. induction b as [|b IH]; [replace a with 0 by lia; reflexivity|]. destruct (Nat.eq_dec a (S b)) as [->|Hne]; [reflexivity|]. rewrite rsum_S, IH by (try lia; intros; apply Z; lia). rewrite Z by lia. rring.
Qed.
(** solveWithDampingFromSvd minimises the damped cost, for every damping. *)
Theorem damped_solve_min (A : mat Rnum) (D : rsvd) (d : R) (b : nat -> R) : is_svd A D ->
  let x := @damped_solve Rnum (mrows A) D d b in
  forall y, (damped_cost (mrows A) (mcols A) (mget A) b d x <= damped_cost (mrows A) (mcols A) (mget A) b d y)%R.
Proof.
  intros (HA & HU & HV & HS & Hz & Hn) x y. set (m := mrows A) in *. set (n := mcols A) in *. set (k := s_k D) in *.
  assert (C : forall z, damped_cost m n (mget A) b d z = damped_cost m n (udv k (s_U D) (s_s D) (mget (s_V D))) b d z).
  { intros z. unfold damped_cost, sqn, mvp. f_equal. apply rsum_ext. intros i Hi. assert (X : rsum n (fun j => mget A i j * z j)%R = rsum n (fun j => udv k (s_U D) (s_s D) (mget (s_V D)) i j * z j)%R) by (apply rsum_ext; intros j Hj; rewrite HA by assumption; reflexivity). rewrite X. reflexivity. }
  set (c := fun q => (rsum m (fun i => s_U D i q * b i) * (s_s D q / (s_s D q * s_s D q + d * d)))%R).
  assert (XE : forall l, x l = rsum k (fun q => mget (s_V D) l q * c q)%R).
  { intros l. symmetry. unfold x, damped_solve, c. apply rsum_cut; [exact Hz|]. intros q Q1 Q2. assert (Z : s_s D q = 0%R). { destruct (Req_dec (s_s D q) 0) as [Z|Z]; [exact Z|]. apply (Hn q Q2) in Z. lia. } rewrite Z. change (mget (s_V D) l q * (rsum m (fun i => s_U D i q * b i) * (0 * / (0 * 0 + d * d))) = 0)%R. ring. }
  assert (NE : forall j, j < n -> (tvp m (udv k (s_U D) (s_s D) (mget (s_V D))) (fun i => mvp n (udv k (s_U D) (s_s D) (mget (s_V D))) x i - b i) j + d * d * x j = 0)%R).
  { intros j Hj. rewrite XE. rewrite <- (damped_normal m n k (s_U D) (s_s D) (mget (s_V D)) b d c HU HV) with (j := j).
    - f_equal. unfold tvp. apply rsum_ext. intros i Hi. f_equal. f_equal. unfold mvp. apply rsum_ext. intros l Hl. rewrite XE. reflexivity.
    - intros q Hq. unfold c. destruct (Req_dec (s_s D q) 0) as [Z|Z]; [rewrite Z; unfold Rdiv; rring|]. rfield. assert (0 < s_s D q * s_s D q)%R by nra. assert (0 <= d * d)%R by nra. lra. }
  rewrite !C, (normal_min m n _ b d x NE y). assert (P1 := sqn_nonneg m (mvp n (udv k (s_U D) (s_s D) (mget (s_V D))) (fun j => y j - x j)%R)). assert (P2 := sqn_nonneg n (fun j => y j - x j)%R). assert (0 <= d * d)%R by nra.
  assert (0 <= d * d * sqn n (fun j => y j - x j))%R by (apply Rmult_le_pos; assumption). lra.
Qed.
(** dampedPseudoInverse times b is the same vector, if the damping or every singular value
    is not zero. *)
Theorem damped_inverse_solves (A : mat Rnum) (D : rsvd) (d : R) (P0 : mat Rnum) : is_svd A D -> mrows P0 = mcols A -> mcols P0 = mrows A -> (d <> 0%R \/ forall k, k < s_k D -> s_s D k <> 0%R) ->
  exists P, @damped_inverse Rnum true A D d P0 = Some (Numbers P) /\ mrows P = mcols A /\ mcols P = mrows A /\
    forall b y, (damped_cost (mrows A) (mcols A) (mget A) b d (mvp (mrows A) (mget P) b) <= damped_cost (mrows A) (mcols A) (mget A) b d y)%R.
Proof.
  intros S R1 R2 Hd. assert (S' := S). destruct S' as (HA & HU & HV & HS & Hz & Hn). unfold damped_inverse. rewrite R1, R2, !Nat.eqb_refl. cbn [andb guard obind].
  assert (NZ : existsb (fun k => @neqb Rnum (s_s D k * s_s D k + d * d)%R 0%R) (seq 0 (s_k D)) = false).
  { apply not_true_is_false. intros E. apply existsb_exists in E as (k & Hk & E). apply in_seq in Hk. apply Reqb_true in E.
    assert (P1 : (0 <= s_s D k * s_s D k)%R) by apply Rle_0_sqr. assert (P2 : (0 <= d * d)%R) by apply Rle_0_sqr. destruct Hd as [Hd|Hd].
    - assert (0 < d * d)%R by (apply Rsqr_pos_lt; exact Hd). lra.
    - assert (0 < s_s D k * s_s D k)%R by (apply Rsqr_pos_lt; apply Hd; lia). lra. }
  change (existsb (fun k => (s_s D k * s_s D k + (d : Rnum) * (d : Rnum) =? n0)%num) (seq 0 (s_k D))) with (existsb (fun k => @neqb Rnum (s_s D k * s_s D k + d * d)%R 0%R) (seq 0 (s_k D))). rewrite NZ. eexists. split; [reflexivity|]. split; [reflexivity|]. split; [reflexivity|]. intros b y. cbn [mget].
  assert (X : forall i, mvp (mrows A) (@vdu Rnum D (@damp_sv Rnum d D)) b i = @damped_solve Rnum (mrows A) D d b i).
  { intros i. unfold mvp, vdu, damp_sv, damped_solve. set (m := mrows A).
    cbn [Rnum nmul nadd ndiv car]. transitivity (rsum (s_k D) (fun k => mget (s_V D) i k * (rsum m (fun j => s_U D j k * b j) * (s_s D k / (s_s D k * s_s D k + d * d))))%R).
    - transitivity (rsum m (fun j => rsum (s_k D) (fun k => (mget (s_V D) i k * (s_s D k / (s_s D k * s_s D k + d * d))) * (s_U D j k * b j)))%R).
      + apply rsum_ext. intros j _. rewrite <- rsum_scal_r. apply rsum_ext. intros. rring.
      + rewrite rsum_swap. apply rsum_ext. intros k _. rewrite rsum_scal. rring.
    - apply rsum_cut; [exact Hz|]. intros q Q1 Q2. assert (Z : s_s D q = 0%R). { destruct (Req_dec (s_s D q) 0) as [Z|Z]; [exact Z|]. apply (Hn q Q2) in Z. lia. } rewrite Z. unfold Rdiv. rring. }
  assert (C := damped_solve_min A D d b S y). cbv zeta in C. eapply Rle_trans; [|exact C]. apply Req_le. unfold damped_cost, sqn, mvp. f_equal.
  - apply rsum_ext. intros i _. assert (W : rsum (mcols A) (fun j => mget A i j * rsum (mrows A) (fun l => @vdu Rnum D (@damp_sv Rnum d D) j l * b l))%R = rsum (mcols A) (fun j => mget A i j * @damped_solve Rnum (mrows A) D d b j)%R) by (apply rsum_ext; intros j _; rewrite <- X; reflexivity). rewrite W. reflexivity.
  - f_equal. apply rsum_ext. intros i _. rewrite <- X. reflexivity.
Qed.
(** Without damping a singular value zero makes the result unusable. *)
Theorem damped_inverse_nan (A : mat Rnum) (D : rsvd) (P0 : mat Rnum) k : mrows P0 = mcols A -> mcols P0 = mrows A -> k < s_k D -> s_s D k = 0%R -> @damped_inverse Rnum true A D 0%R P0 = Some NaN.
Proof.
  intros R1 R2 Hk Z. unfold damped_inverse. rewrite R1, R2, !Nat.eqb_refl. cbn [andb guard obind].
  assert (E : existsb (fun k => @neqb Rnum (s_s D k * s_s D k + 0 * 0)%R 0%R) (seq 0 (s_k D)) = true).
  { apply existsb_exists. exists k. split; [apply in_seq; lia|]. rewrite Z. apply Reqb_true. rring. }
  change (existsb (fun k => (s_s D k * s_s D k + (0%R : Rnum) * (0%R : Rnum) =? n0)%num) (seq 0 (s_k D))) with (existsb (fun k => @neqb Rnum (s_s D k * s_s D k + 0 * 0)%R 0%R) (seq 0 (s_k D))). rewrite E. reflexivity.
Qed.
(** * Null space *)
Lemma filter_prefix (f : nat -> bool) k z : z <= k -> (forall q, q < k -> f q = (q <? z)) -> length (filter f (seq 0 k)) = z.
Proof.
  revert z. induction k as [|k IH]; intros z Hz H; [cbn; lia|]. rewrite seq_S, filter_app, app_length. cbn [filter plus]. rewrite (H k) by lia. destruct (Nat.ltb_spec k z).
  - assert (z = S k) by lia. subst z. rewrite (IH k); [cbn; lia|lia|]. intros q Hq. rewrite H by lia. destruct (Nat.ltb_spec q (S k)), (Nat.ltb_spec q k); try reflexivity; lia.
  - rewrite (IH z); [cbn; lia|lia|]. intros q Hq. apply H. lia.
Qed.
Lemma rank_nz (A : mat Rnum) (D : rsvd) tol : is_svd A D -> separated tol D -> @sv_rank Rnum tol D = s_nz D.
Proof.
  intros (_ & _ & _ & _ & Hz & Hn) (Ht & Hk). unfold sv_rank. apply filter_prefix; [exact Hz|]. intros q Hq. unfold kept.
  assert (T : @nltb Rnum (@n0 Rnum) tol = true) by (apply Rltb_true; exact Ht). rewrite T. cbn [andb]. specialize (Hn q Hq). destruct (Hk q Hq) as [Z|Z].
  - assert (X : @nltb Rnum tol (s_s D q) = false) by (apply Rltb_false; rewrite Z; cbn; lra). rewrite X. symmetry. apply Nat.ltb_ge. destruct (Nat.lt_ge_cases q (s_nz D)) as [L|L]; [|exact L]. apply Hn in L. contradiction.
  - assert (X : @nltb Rnum tol (s_s D q) = true) by (apply Rltb_true; exact Z). rewrite X. symmetry. apply Nat.ltb_lt. apply Hn. lra.
Qed.
(** B spans the kernel of A and its columns are orthonormal. *)
Definition kernel_basis (A B : mat Rnum) : Prop :=
  mrows B = mcols A /\
  (forall i c, i < mrows A -> c < mcols B -> mvp (mcols A) (mget A) (fun j => mget B j c) i = 0%R) /\
  ortho (mcols A) (mcols B) (mget B) /\
  (forall x, (forall i, i < mrows A -> mvp (mcols A) (mget A) x i = 0%R) -> exists z, forall j, j < mcols A -> x j = rsum (mcols B) (fun c => mget B j c * z c)%R).
Theorem null_basis_kernel (A : mat Rnum) (D : rsvd) tol : is_svd A D -> full_v A D -> separated tol D ->
  exists B, @null_basis_tol Rnum D tol = Some B /\ kernel_basis A B.
Proof.
  intros S (RV & CV & Hk & HF & HG) T. unfold null_basis_tol. rewrite (rank_nz A D tol S T). destruct S as (HA & HU & HV & HS & Hz & Hn). unfold null_basis. rewrite RV, CV, Nat.eqb_refl.
  assert (L : (s_nz D <=? mcols A) = true) by (apply Nat.leb_le; lia). rewrite L. cbn [andb guard obind]. eexists. split; [reflexivity|]. unfold kernel_basis. cbn [mrows mcols mget]. set (m := mrows A) in *. set (n := mcols A) in *. set (V := mget (s_V D)) in *.
  assert (ME : forall x i, i < m -> mvp n (mget A) x i = rsum (s_k D) (fun q => s_U D i q * (s_s D q * rsum n (fun j => V j q * x j)))%R).
  { intros x i Hi. unfold mvp. transitivity (rsum n (fun j => rsum (s_k D) (fun q => (s_U D i q * s_s D q) * (V j q * x j)))%R).
    - apply rsum_ext. intros j Hj. rewrite HA by assumption. rewrite <- rsum_scal_r. apply rsum_ext. intros q Hq. unfold V. rring.
    - rewrite rsum_swap. apply rsum_ext. intros q _. rewrite rsum_scal. rring. }
  assert (SZ : forall q, s_nz D <= q -> q < s_k D -> s_s D q = 0%R). { intros q Q1 Q2. destruct (Req_dec (s_s D q) 0) as [Z|Z]; [exact Z|]. apply (Hn q Q2) in Z. lia. }
  split; [reflexivity|]. split; [|split].
  - intros i c Hi Hc. rewrite ME by exact Hi. apply rsum_zero. intros q Hq. destruct (Nat.lt_ge_cases q (s_nz D)) as [L1|L1].
    + rewrite HF by lia. unfold delta. destruct (Nat.eqb_spec q (s_nz D + c)); [lia|]. rring.
    + rewrite (SZ q L1 Hq). rring.
  - intros a b Ha Hb. rewrite HF by lia. unfold delta. destruct (Nat.eqb_spec a b), (Nat.eqb_spec (s_nz D + a) (s_nz D + b)); try reflexivity; lia.
  - intros x Hx. exists (fun c => rsum n (fun j => V j (s_nz D + c)%nat * x j)%R). intros j Hj.
    assert (W : forall q, q < s_nz D -> rsum n (fun l => V l q * x l)%R = 0%R).
    { intros q Hq. assert (Hq' : q < s_k D) by lia.
      assert (Y : (s_s D q * rsum n (fun l => V l q * x l) = 0)%R).
      { transitivity (rsum m (fun i => s_U D i q * mvp n (mget A) x i)%R).
        - symmetry. transitivity (rsum m (fun i => rsum (s_k D) (fun a => (s_s D a * rsum n (fun l => V l a * x l)) * (s_U D i q * s_U D i a)))%R).
          + apply rsum_ext. intros i Hi. rewrite ME by exact Hi. rewrite <- rsum_scal. apply rsum_ext. intros. rring.
          + rewrite rsum_swap. transitivity (rsum (s_k D) (fun a => delta q a * (s_s D a * rsum n (fun l => V l a * x l)))%R); [|apply rsum_delta; exact Hq'].
            apply rsum_ext. intros a Ha. rewrite rsum_scal, (HU q a Hq' Ha). rring.
        - apply rsum_zero. intros i Hi. rewrite (Hx i Hi). rring. }
      apply Rmult_integral in Y as [Y|Y]; [|exact Y]. apply (Hn q Hq') in Hq. contradiction. }
    transitivity (rsum n (fun q => V j q * rsum n (fun l => V l q * x l))%R).
    + symmetry. transitivity (rsum n (fun l => rsum n (fun q => x l * (V j q * V l q)))%R).
      * rewrite rsum_swap. apply rsum_ext. intros q _. rewrite <- rsum_scal. apply rsum_ext. intros. rring.
      * transitivity (rsum n (fun l => delta j l * x l)%R); [|apply rsum_delta; exact Hj]. apply rsum_ext. intros l Hl. rewrite rsum_scal, (HG j l Hj Hl). rring.
    + replace n with (s_nz D + (n - s_nz D)) at 1 by lia. rewrite rsum_app. rewrite (rsum_zero (s_nz D)); [apply Rplus_0_l|]. intros q Hq. rewrite (W q Hq). rring.
Qed.
(** A thin V of a matrix with more columns than rows cannot be used. *)
Theorem null_basis_thin (D : rsvd) rank : mcols (s_V D) <> mrows (s_V D) -> @null_basis Rnum D rank = None.
Proof. intros H. unfold null_basis. assert (E : (mrows (s_V D) =? mcols (s_V D)) = false) by (apply Nat.eqb_neq; congruence). rewrite E, andb_false_r. reflexivity. Qed.
(** pseudoInverse with a buffer returns both. *)
Theorem pinv_null_basis (A : mat Rnum) (D : rsvd) (tol : R) (P0 : mat Rnum) : is_svd A D -> full_v A D -> separated tol D -> mrows P0 = mcols A -> mcols P0 = mrows A ->
  exists P B, @pseudo_inverse Rnum true true A D tol P0 = Some (P, Some B) /\ @pseudo_inverse Rnum true false A D tol P0 = Some (P, None) /\ kernel_basis A B.
Proof.
  intros S F T R1 R2. destruct (null_basis_kernel A D tol S F T) as (B & E & HB). unfold null_basis_tol in E. unfold pseudo_inverse. rewrite R1, R2, !Nat.eqb_refl, E. cbn [andb guard obind]. do 2 eexists. split; [reflexivity|]. split; [reflexivity|exact HB].
Qed.
(** Without a positive tolerance every column of V is returned as null space. *)
Theorem null_no_tolerance (A : mat Rnum) (D : rsvd) (tol : R) : (tol <= 0)%R -> full_v A D -> exists B, @null_basis_tol Rnum D tol = Some B /\ mcols B = mcols A.
Proof.
  intros Ht (RV & CV & _). unfold null_basis_tol. assert (E : @sv_rank Rnum tol D = 0).
  { unfold sv_rank, kept. assert (T : @nltb Rnum (@n0 Rnum) tol = false) by (apply Rltb_false; exact Ht). rewrite T. cbn [andb]. induction (seq 0 (s_k D)) as [|a l IH]; [reflexivity|exact IH]. }
  rewrite E. unfold null_basis. rewrite RV, CV, Nat.eqb_refl. cbn [Nat.leb andb guard obind]. eexists. split; [reflexivity|]. cbn [mcols]. lia.
Qed.
