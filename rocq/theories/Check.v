(** checkConstraint of the three constraint classes. *)
From Coq Require Import List Arith Bool Reals Lia Lra.
From Verif Require Import Scalar Outcome Linalg Constraint FormPhysSpec RSum Solvers SolverSpec SolverSizes SolverSem SolverCost.
Import ListNotations.
Open Scope nat_scope.

Section Model.
Context {K : num}.
(** sqrt of <cmath> *)
Variable sq : K -> K.
Fixpoint all_below (n : nat) (p : nat -> bool) : bool :=
  match n with O => true | S n' => all_below n' p && p n' end.
(** (a.array() <= b.array() + tol).all() and (a.array() >= b.array() - tol).all(); the
    sizes are asserted equal. *)
Definition le_all (a b : vec K) (tol : K) : option bool :=
  if vlen a =? vlen b then Some (all_below (vlen a) (fun i => (vget a i <=? vget b i + tol)%num)) else None.
Definition ge_all (a b : vec K) (tol : K) : option bool :=
  if vlen a =? vlen b then Some (all_below (vlen a) (fun i => (vget b i - tol <=? vget a i)%num)) else None.
(** v.norm() *)
Definition norm (v : vec K) : K := sq (nsum (vlen v) (fun i => (vget v i * vget v i)%num)).

(** constraint-equality.cpp:89-91, constraint-inequality.cpp:77-80,
    constraint-bound.cpp:77-80.  [&&] does not evaluate its second operand when the
    first is false. *)
Definition check (c : constr K) (x : vec K) (tol : K) : option bool :=
  match c_kind c with
  | CEq => do y <- mvec (c_mat c) x; do r <- vsub y (c_vec c); Some (norm r <? tol)%num
  | CIneq =>
      do y <- mvec (c_mat c) x;
      do u <- le_all y (c_ub c) tol;
      if (u : bool) then ge_all y (c_lb c) tol else Some false
  | CBound =>
      do u <- le_all x (c_ub c) tol;
      if (u : bool) then ge_all x (c_lb c) tol else Some false
  end.
Lemma all_below_true n p : all_below n p = true <-> forall i, i < n -> p i = true.
Proof.
  induction n as [|n IH]; cbn [all_below]; [split; [lia|reflexivity]|].
  rewrite andb_true_iff, IH. split.
  - intros [H1 H2] i Hi. destruct (Nat.eq_dec i n) as [->|]; [exact H2|apply H1; lia].
  - intros H. split; [intros i Hi; apply H; lia|apply H; lia].
Qed.
End Model.

(** The constraint with slack [tol]. *)
Definition within (c : constr Rnum) (x : nat -> R) (tol : R) : Prop :=
  match c_kind c with
  | CEq => (sqrt (sqnorm (vlen (c_vec c)) (fun i => lhs c x i - vget (c_vec c) i)) < tol)%R
  | _ => forall i, i < vlen (c_lb c) -> (vget (c_lb c) i - tol <= lhs c x i <= vget (c_ub c) i + tol)%R
  end.

#[local] Opaque nsum.
Lemma le_all_ok (a b : vec Rnum) (tol : R) : vlen a = vlen b ->
  exists r, le_all a b tol = Some r /\ (r = true <-> forall i, i < vlen a -> (vget a i <= vget b i + tol)%R).
Proof.
  intros H. unfold le_all. rewrite H, Nat.eqb_refl. eexists. split; [reflexivity|]. rewrite all_below_true.
  split; intros Z i Hi; apply Rleb_true; apply Z; exact Hi.
Qed.
Lemma ge_all_ok (a b : vec Rnum) (tol : R) : vlen a = vlen b ->
  exists r, ge_all a b tol = Some r /\ (r = true <-> forall i, i < vlen a -> (vget b i - tol <= vget a i)%R).
Proof.
  intros H. unfold ge_all. rewrite H, Nat.eqb_refl. eexists. split; [reflexivity|]. rewrite all_below_true.
  split; intros Z i Hi; apply Rleb_true; apply Z; exact Hi.
Qed.
Theorem check_within n c x (tol : R) : cwf n c -> vlen x = n ->
  exists r, check sqrt c x tol = Some r /\ (r = true <-> within c (vget x) tol).
Proof.
  intros W L. unfold check, within, cwf, lhs in *. destruct (c_kind c).
  - destruct W as [W1 W2]. unfold mvec. rewrite W1, L, Nat.eqb_refl. cbn [obind].
    unfold vsub. cbn [vlen vget]. rewrite <- W2, Nat.eqb_refl. cbn [obind]. eexists. split; [reflexivity|].
    unfold norm, sqnorm. cbn [vlen vget nltb]. rewrite <- W1. apply Rltb_true.
  - destruct W as (W1 & W2 & W3). unfold mvec. rewrite W1, L, Nat.eqb_refl. cbn [obind].
    destruct (le_all_ok (mkVec (mrows (c_mat c)) (fun i => @nsum Rnum n (fun k => (mget (c_mat c) i k * vget x k)%num))) (c_ub c) tol) as (u & -> & Hu).
    { cbn [vlen]. congruence. }
    destruct (ge_all_ok (mkVec (mrows (c_mat c)) (fun i => @nsum Rnum n (fun k => (mget (c_mat c) i k * vget x k)%num))) (c_lb c) tol) as (g & Hge & Hg).
    { cbn [vlen]. congruence. }
    cbn [obind]. cbn [vlen vget] in Hu, Hg. rewrite <- W2 in Hu, Hg. destruct u.
    + exists g. split; [exact Hge|]. rewrite Hg. assert (U := proj1 Hu eq_refl). split; intros Z i Hi.
      * split; [apply Z; exact Hi|apply U; exact Hi].
      * apply Z; exact Hi.
    + exists false. split; [reflexivity|]. split; [discriminate|]. intros Z. apply Hu. intros i Hi. apply Z; exact Hi.
  - destruct W as (W2 & W3).
    destruct (le_all_ok x (c_ub c) tol) as (u & -> & Hu); [congruence|].
    destruct (ge_all_ok x (c_lb c) tol) as (g & Hge & Hg); [congruence|].
    cbn [obind]. rewrite L, <- W2 in Hu, Hg. destruct u.
    + exists g. split; [exact Hge|]. rewrite Hg. assert (U := proj1 Hu eq_refl). split; intros Z i Hi.
      * split; [apply Z; exact Hi|apply U; exact Hi].
      * apply Z; exact Hi.
    + exists false. split; [reflexivity|]. split; [discriminate|]. intros Z. apply Hu. intros i Hi. apply Z; exact Hi.
Qed.
Lemma check_true n c x (tol : R) : cwf n c -> vlen x = n -> check sqrt c x tol = Some true <-> within c (vget x) tol.
Proof.
  intros W L. destruct (check_within n c x tol W L) as (r & -> & H). rewrite <- H. split; [congruence|intros ->; reflexivity].
Qed.
Lemma within_mono c x (t1 t2 : R) : (t1 <= t2)%R -> within c x t1 -> within c x t2.
Proof.
  unfold within. intros H. destruct (c_kind c); [intros; lra| |]; intros Z i Hi; specialize (Z i Hi); lra.
Qed.
Lemma sat_within c x (tol : R) : (0 < tol)%R -> sat c x -> within c x tol.
Proof.
  unfold within, sat. intros H. destruct (c_kind c).
  - intros Z. unfold sqnorm. rewrite rsum_zero; [rewrite sqrt_0; exact H|]. intros i Hi. rewrite Z by exact Hi. ring.
  - intros Z i Hi; specialize (Z i Hi); lra.
  - intros Z i Hi; specialize (Z i Hi); lra.
Qed.
Lemma sqnorm_entry n (y : nat -> R) i : i < n -> (Rabs (y i) <= sqrt (sqnorm n y))%R.
Proof.
  intros Hi. rewrite <- sqrt_Rsqr_abs. apply sqrt_le_1_alt. unfold sqnorm, Rsqr.
  induction n as [|n IH]; [lia|]. rewrite rsum_S. pose proof (sqnorm_nonneg n y) as P. unfold sqnorm in P.
  assert (Q : (0 <= y n * y n)%R) by apply Rle_0_sqr.
  destruct (Nat.eq_dec i n) as [->|]; [lra|]. assert (i < n) by lia. specialize (IH H). lra.
Qed.
(** Every row of an accepted constraint is violated by at most [tol]. *)
Definition row_violation (c : constr Rnum) (x : nat -> R) (i : nat) (v : R) : Prop :=
  match c_kind c with
  | CEq => (Rabs (lhs c x i - vget (c_vec c) i) <= v)%R
  | _ => (lhs c x i - vget (c_ub c) i <= v)%R /\ (vget (c_lb c) i - lhs c x i <= v)%R
  end.
Definition rows_of (c : constr Rnum) : nat := match c_kind c with CEq => vlen (c_vec c) | _ => vlen (c_lb c) end.
Lemma within_rows c x (tol : R) : within c x tol -> forall i, i < rows_of c -> row_violation c x i tol.
Proof.
  unfold within, row_violation, rows_of. destruct (c_kind c); intros Z i Hi.
  - pose proof (sqnorm_entry _ (fun i => lhs c x i - vget (c_vec c) i)%R i Hi) as E. cbn beta in E. lra.
  - specialize (Z i Hi). lra.
  - specialize (Z i Hi). lra.
Qed.
(** Satisfied up to every positive tolerance = satisfied. *)
Lemma within_all c x : (forall tol, (0 < tol)%R -> within c x tol) <-> sat c x.
Proof.
  split; [|intros H tol Ht; apply sat_within; assumption]. intros H.
  assert (Rv : forall i, i < rows_of c -> forall v, (0 < v)%R -> row_violation c x i v).
  { intros i Hi v Hv. apply within_rows; auto. }
  assert (P : forall a : R, (forall v, (0 < v)%R -> (a <= v)%R) -> (a <= 0)%R).
  { intros a Ha. apply Rnot_lt_le. intros L. specialize (Ha (a / 2)%R). lra. }
  unfold sat, rows_of, row_violation in *. destruct (c_kind c); intros i Hi; specialize (Rv i Hi).
  - assert (Z : (Rabs (lhs c x i - vget (c_vec c) i) <= 0)%R) by (apply P; exact Rv).
    pose proof (Rabs_pos (lhs c x i - vget (c_vec c) i)).
    assert (Q : (Rabs (lhs c x i - vget (c_vec c) i) = 0)%R) by lra.
    destruct (Req_dec (lhs c x i - vget (c_vec c) i) 0) as [E|E]; [lra|]. apply Rabs_no_R0 in E. contradiction.
  - assert (Z1 : (lhs c x i - vget (c_ub c) i <= 0)%R) by (apply P; intros v Hv; apply (Rv v Hv)).
    assert (Z2 : (vget (c_lb c) i - lhs c x i <= 0)%R) by (apply P; intros v Hv; apply (Rv v Hv)). lra.
  - assert (Z1 : (lhs c x i - vget (c_ub c) i <= 0)%R) by (apply P; intros v Hv; apply (Rv v Hv)).
    assert (Z2 : (vget (c_lb c) i - lhs c x i <= 0)%R) by (apply P; intros v Hv; apply (Rv v Hv)). lra.
Qed.
(** An equality is never accepted with tol <= 0, not even by an exact solution. *)
Lemma within_zero c x (tol : R) : c_kind c = CEq -> (tol <= 0)%R -> ~ within c x tol.
Proof. unfold within. intros -> H. pose proof (sqrt_pos (sqnorm (vlen (c_vec c)) (fun i => lhs c x i - vget (c_vec c) i)%R)). lra. Qed.

(** The same about the returned boolean. *)
Theorem check_exact n c (x : vec Rnum) (tol : R) : cwf n c -> vlen x = n -> (0 < tol)%R -> sat c (vget x) ->
  check sqrt c x tol = Some true.
Proof. intros W L T S. apply (check_true n c x tol W L). apply sat_within; assumption. Qed.
Theorem check_mono n c (x : vec Rnum) (t1 t2 : R) : cwf n c -> vlen x = n -> (t1 <= t2)%R ->
  check sqrt c x t1 = Some true -> check sqrt c x t2 = Some true.
Proof. intros W L T. rewrite (check_true n c x t1 W L), (check_true n c x t2 W L). apply within_mono. exact T. Qed.
Theorem check_all n c (x : vec Rnum) : cwf n c -> vlen x = n ->
  (forall tol : R, (0 < tol)%R -> check sqrt c x tol = Some true) <-> sat c (vget x).
Proof.
  intros W L. rewrite <- within_all. split; intros H tol T; [apply (check_true n c x tol W L)|apply (check_true n c x tol W L)]; apply H; exact T.
Qed.
Theorem check_eq_zero n c (x : vec Rnum) (tol : R) : cwf n c -> vlen x = n -> c_kind c = CEq -> (tol <= 0)%R ->
  check sqrt c x tol = Some false.
Proof.
  intros W L E T. destruct (check_within n c x tol W L) as (r & -> & H). destruct r; [|reflexivity].
  exfalso. apply (within_zero c (vget x) tol E T). apply H. reflexivity.
Qed.
