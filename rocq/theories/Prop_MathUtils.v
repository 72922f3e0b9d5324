(** Properties C46 - C48, C53, C67, C68 and C71: the functions of math/utils.  Only
    statements; the proofs are in ConstTraj.v, MatrixFile.v, SvdUtils.v and FloatUtils.v.
    [is_svd A D]: D is a singular value decomposition of A; [full_v]: with a square
    orthogonal V; [separated tol D]: 0 < tol and no singular value in (0, tol].
    [moore_penrose]: the four conditions; [kernel_basis A B]: orthonormal basis of the kernel.
    [entry M x]: x is an entry of M.  Files are lists of bytes. *)
From Coq Require Import String List Arith Bool ZArith Reals Lia Lra.
From Flocq Require Import BinarySingleNaN.
From Verif Require Import Scalar Outcome Linalg RSum FrameTasks ConstTraj MatrixFile SvdUtils FloatUtils.
Import ListNotations.
Open Scope list_scope.
Open Scope nat_scope.

(** ** C46 placements as vectors *)
Theorem C46_place_vector_place : forall (K : num) (M M0 : ConstTraj.place K) (v : vec K), vlen v = 12 ->
  exists w N, se3_write M v = Ret w tt /\ vlen w = 12 /\ se3_read w M0 = Ret N tt /\ same_place M N.
Proof. exact @se3_write_read. Qed.
Print Assumptions C46_place_vector_place.
Theorem C46_vector_place_vector : forall (K : num) (v w : vec K) (M0 : ConstTraj.place K), vlen v = 12 -> vlen w = 12 ->
  exists M u, se3_read v M0 = Ret M tt /\ se3_write M w = Ret u tt /\ veq u v.
Proof. exact @se3_read_write. Qed.
Print Assumptions C46_vector_place_vector.
Theorem C46_layout : forall (K : num) (M : ConstTraj.place K) (v w : vec K), se3_write M v = Ret w tt -> forall i, i < 3 -> vget w i = snd M i /\ forall j, j < 3 -> vget w (3 + 3 * j + i) = fst M i j.
Proof. exact @se3_layout. Qed.
Print Assumptions C46_layout.
Theorem C46_sizes : forall (K : num) (M : ConstTraj.place K) (v : vec K), vlen v <> 12 -> se3_write M v = Exc v /\ se3_read v M = Exc M.
Proof. exact @se3_sizes. Qed.
Print Assumptions C46_sizes.
Example C46_case : exists w, @se3_write Qnum ((fun i j => QArith_base.inject_Z (Z.of_nat (10 * i + j))), (fun i => QArith_base.inject_Z (Z.of_nat i))) (@vzero Qnum 12) = Ret w tt /\ vget w 5 = QArith_base.inject_Z 20 /\ vget w 9 = QArith_base.inject_Z 2.
Proof. eexists. split; [reflexivity|]. split; reflexivity. Qed.

(** ** C47 matrix files *)
Theorem C47_roundtrip : forall junk, (forall n, length (junk n) = n) -> forall resizes m f b out, mwf m -> index_ok m -> mwf out -> write_matrix true m = (b, f) ->
  (resizes = true \/ (m_rows out = m_rows m /\ m_cols out = m_cols m)) -> b = true /\ read_matrix resizes junk f out = Some (true, m).
Proof. exact file_roundtrip. Qed.
Print Assumptions C47_roundtrip.
Theorem C47_entries : forall junk, (forall n, length (junk n) = n) -> forall resizes m f b out out' row_major, mwf m -> index_ok m -> mwf out -> write_matrix true m = (b, f) ->
  (resizes = true \/ (m_rows out = m_rows m /\ m_cols out = m_cols m)) -> read_matrix resizes junk f out = Some (true, out') ->
  m_rows out' = m_rows m /\ m_cols out' = m_cols m /\ forall i j, m_entry row_major out' i j = m_entry row_major m i j.
Proof. exact file_entries. Qed.
Print Assumptions C47_entries.
Theorem C47_closed : forall junk resizes m out, write_matrix false m = (false, None) /\ read_matrix resizes junk None out = Some (false, out).
Proof. exact file_closed. Qed.
Print Assumptions C47_closed.
(** The stated property is false for matrices of different storage order. *)
Theorem C47_order_refuted : forall junk, (forall n, length (junk n) = n) -> exists m f out', mwf m /\ index_ok m /\ write_matrix true m = (true, f) /\ read_matrix true junk f m = Some (true, out') /\ m_entry true m 0 1 <> m_entry false out' 0 1.
Proof. exact file_order_refuted. Qed.
Print Assumptions C47_order_refuted.
Definition ex_file : smat := mkSmat 1 2 (le_enc 8 7 ++ le_enc 8 9).
Example C47_case : mwf ex_file /\ index_ok ex_file /\ m_entry false ex_file 0 1 = le_enc 8 9 /\ exists f, write_matrix true ex_file = (true, Some f) /\ length f = 32.
Proof. split; [reflexivity|]. split; [split; reflexivity|]. split; [reflexivity|]. eexists. split; reflexivity. Qed.

(** ** C68 damaged files are accepted
    Bytes that are missing are left as the memory was, and true is returned. *)
Theorem C68_truncated : forall junk m out k, mwf m -> index_ok m -> m_rows m * m_cols m <> m_rows out * m_cols out -> k <= 8 * (m_rows m * m_cols m) ->
  exists d, read_matrix true junk (Some (le_enc 8 (Z.of_nat (m_rows m)) ++ le_enc 8 (Z.of_nat (m_cols m)) ++ firstn k (m_data m))) out = Some (true, mkSmat (m_rows m) (m_cols m) d) /\
    d = firstn k (m_data m) ++ skipn k (junk (8 * (m_rows m * m_cols m))).
Proof. exact file_truncated. Qed.
Print Assumptions C68_truncated.
Theorem C68_empty : forall junk out, mwf out -> m_rows out * m_cols out <> 0 -> read_matrix true junk (Some []) out = Some (true, mkSmat 0 0 (junk 0)).
Proof. exact file_empty. Qed.
Print Assumptions C68_empty.
Example C68_case : mwf ex_file /\ mwf (mkSmat 0 0 []) /\ m_rows ex_file * m_cols ex_file <> m_rows (mkSmat 0 0 []) * m_cols (mkSmat 0 0 []).
Proof. split; [reflexivity|]. split; [reflexivity|]. cbn. lia. Qed.

(** ** C48 pseudo-inverses *)
Theorem C48_moore_penrose : forall (A : mat Rnum) (D : rsvd) (tol : R) (P0 : mat Rnum), is_svd A D -> separated tol D -> mrows P0 = mcols A -> mcols P0 = mrows A ->
  exists P, @pseudo_inverse Rnum true false A D tol P0 = Some (P, None) /\ mrows P = mcols A /\ mcols P = mrows A /\ moore_penrose (mrows A) (mcols A) (mget A) (mget P) /\
    forall Q, moore_penrose (mrows A) (mcols A) (mget A) Q -> forall i j, i < mcols A -> j < mrows A -> mget P i j = Q i j.
Proof. exact pinv_moore_penrose. Qed.
Print Assumptions C48_moore_penrose.
Theorem C48_damped_solve : forall (A : mat Rnum) (D : rsvd) (d : R) (b : nat -> R), is_svd A D ->
  let x := @damped_solve Rnum (mrows A) D d b in
  forall y, (damped_cost (mrows A) (mcols A) (mget A) b d x <= damped_cost (mrows A) (mcols A) (mget A) b d y)%R.
Proof. exact damped_solve_min. Qed.
Print Assumptions C48_damped_solve.
Theorem C48_damped_inverse : forall (A : mat Rnum) (D : rsvd) (d : R) (P0 : mat Rnum), is_svd A D -> mrows P0 = mcols A -> mcols P0 = mrows A -> (d <> 0%R \/ forall k, k < s_k D -> s_s D k <> 0%R) ->
  exists P, @damped_inverse Rnum true A D d P0 = Some (Numbers P) /\ mrows P = mcols A /\ mcols P = mrows A /\
    forall b y, (damped_cost (mrows A) (mcols A) (mget A) b d (mvp (mrows A) (mget P) b) <= damped_cost (mrows A) (mcols A) (mget A) b d y)%R.
Proof. exact damped_inverse_solves. Qed.
Print Assumptions C48_damped_inverse.
(** What the conditions exclude. *)
Theorem C48_no_tolerance : forall (A : mat Rnum) (D : rsvd) (tol : R) (P0 P : mat Rnum) B, (tol <= 0)%R -> @pseudo_inverse Rnum true false A D tol P0 = Some (P, B) -> forall i j, mget P i j = 0%R.
Proof. exact pinv_no_tolerance. Qed.
Print Assumptions C48_no_tolerance.
Theorem C48_no_options : forall ns (A : mat Rnum) (D : rsvd) (tol : R) (P0 : mat Rnum), @pseudo_inverse Rnum false ns A D tol P0 = Some (P0, None).
Proof. exact pinv_no_options. Qed.
Print Assumptions C48_no_options.
Theorem C48_damped_nan : forall (A : mat Rnum) (D : rsvd) (P0 : mat Rnum) k, mrows P0 = mcols A -> mcols P0 = mrows A -> k < s_k D -> s_s D k = 0%R -> @damped_inverse Rnum true A D 0%R P0 = Some NaN.
Proof. exact damped_inverse_nan. Qed.
Print Assumptions C48_damped_nan.
(** A 2 x 3 matrix of rank 1. *)
Definition ex_eye (i j : nat) : R := if i =? j then 1%R else 0%R.
Definition ex_A : mat Rnum := @mkMat Rnum 2 3 (fun i j => if (i =? 0) && (j =? 0) then 2%R else 0%R).
Definition ex_svd : rsvd := @mkSvd Rnum ex_eye (fun k => if k =? 0 then 2%R else 0%R) (@mkMat Rnum 3 3 ex_eye) 2 1.
Ltac small i := destruct i as [|[|[|i]]]; try lia.
Lemma ex_is_svd : is_svd ex_A ex_svd.
Proof.
  unfold is_svd, ortho. cbn [ex_A ex_svd mrows mcols mget s_U s_s s_V s_k s_nz]. split; [|split; [|split; [|split; [|split]]]].
  - intros i j Hi Hj. rewrite !rsum_S, rsum_0. small i; small j; unfold ex_eye; cbn; ring.
  - intros a b Ha Hb. rewrite !rsum_S, rsum_0. small a; small b; unfold ex_eye, delta; cbn; ring.
  - intros a b Ha Hb. rewrite !rsum_S, rsum_0. small a; small b; unfold ex_eye, delta; cbn; ring.
  - intros k Hk. destruct (k =? 0); lra.
  - lia.
  - intros k Hk. destruct (Nat.eqb_spec k 0); split; intros; try lia; lra.
Qed.
Example C48_case : is_svd ex_A ex_svd /\ separated (/ 10)%R ex_svd /\ exists P, @pseudo_inverse Rnum true false ex_A ex_svd (/ 10)%R (@mzero Rnum 3 2) = Some (P, None) /\ mget P 0 0 = (/ 2)%R.
Proof.
  split; [exact ex_is_svd|]. assert (S : separated (/ 10)%R ex_svd).
  { split; [lra|]. intros k Hk. cbn [ex_svd s_s]. destruct (k =? 0); [right|left]; lra. }
  split; [exact S|]. eexists. split; [reflexivity|]. cbn [mget]. unfold vdu, inv_sv, kept. cbn [ex_svd s_k]. rewrite !rsum_S, rsum_0. cbn [ex_svd s_s s_V s_U mget Nat.eqb].
  assert (T1 : @nltb Rnum (@n0 Rnum) (/ 10)%R = true) by (apply Rltb_true; cbn; lra). assert (T2 : @nltb Rnum (/ 10)%R 2%R = true) by (apply Rltb_true; cbn; lra). assert (T3 : @nltb Rnum (/ 10)%R 0%R = false) by (apply Rltb_false; cbn; lra).
  rewrite T1, T2, T3. unfold ex_eye. cbn. field.
Qed.

(** ** C71 null space basis *)
Theorem C71_kernel : forall (A : mat Rnum) (D : rsvd) tol, is_svd A D -> full_v A D -> separated tol D -> exists B, @null_basis_tol Rnum D tol = Some B /\ kernel_basis A B.
Proof. exact null_basis_kernel. Qed.
Print Assumptions C71_kernel.
Theorem C71_with_inverse : forall (A : mat Rnum) (D : rsvd) (tol : R) (P0 : mat Rnum), is_svd A D -> full_v A D -> separated tol D -> mrows P0 = mcols A -> mcols P0 = mrows A ->
  exists P B, @pseudo_inverse Rnum true true A D tol P0 = Some (P, Some B) /\ @pseudo_inverse Rnum true false A D tol P0 = Some (P, None) /\ kernel_basis A B.
Proof. exact pinv_null_basis. Qed.
Print Assumptions C71_with_inverse.
(** What the conditions exclude: a thin V, and a tolerance that is not positive. *)
Theorem C71_thin : forall (D : rsvd) rank, mcols (s_V D) <> mrows (s_V D) -> @null_basis Rnum D rank = None.
Proof. exact null_basis_thin. Qed.
Print Assumptions C71_thin.
Theorem C71_no_tolerance : forall (A : mat Rnum) (D : rsvd) (tol : R), (tol <= 0)%R -> full_v A D -> exists B, @null_basis_tol Rnum D tol = Some B /\ mcols B = mcols A.
Proof. exact null_no_tolerance. Qed.
Print Assumptions C71_no_tolerance.
Example C71_case : full_v ex_A ex_svd /\ exists B, @null_basis Rnum ex_svd 1 = Some B /\ mcols B = 2.
Proof.
  split; [|eexists; split; reflexivity]. unfold full_v, ortho. cbn [ex_A ex_svd mrows mcols mget s_V s_k]. split; [reflexivity|]. split; [reflexivity|]. split; [lia|]. split.
  - intros a b Ha Hb. rewrite !rsum_S, rsum_0. small a; small b; unfold ex_eye, delta; cbn; ring.
  - intros a b Ha Hb. rewrite !rsum_S, rsum_0. small a; small b; unfold ex_eye, delta; cbn; ring.
Qed.

(** ** C53 is_nan: it answers the opposite *)
Theorem C53_inverted : forall M, is_nan_code M = true <-> forall x, entry M x -> is_nan x = false.
Proof. exact is_nan_inverted. Qed.
Print Assumptions C53_inverted.
Theorem C53_refuted : (exists M, is_nan_code M = true /\ forall x, entry M x -> is_nan x = false) /\ (exists M x, entry M x /\ is_nan x = true /\ is_nan_code M = false).
Proof. exact is_nan_refuted. Qed.
Print Assumptions C53_refuted.

(** ** C67 isFinite *)
Theorem C67_finite : forall md M, isFinite md M = true <-> forall x, entry M x -> is_finite x = true.
Proof. exact isFinite_true. Qed.
Print Assumptions C67_finite.
(** Infinite but not NaN. *)
Example C67_case : isFinite mode_NE (mkFmat 1 1 (fun _ _ => B754_infinity false)) = false /\ isFinite mode_NE (mkFmat 2 2 (fun _ _ => B754_zero true)) = true.
Proof. split; reflexivity. Qed.
