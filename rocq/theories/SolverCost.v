(** The cost of the QP over the reals. *)
From Coq Require Import List Arith Bool Reals Lia Lra QArith Qreals.
From Verif Require Import Scalar Outcome Linalg Constraint FormSpec FormPhysSpec RSum Solvers SolverSpec SolverSizes SolverSem.
Import ListNotations.
Open Scope nat_scope.
#[local] Opaque nsum.
Implicit Types (s : sst Rnum) (c : constr Rnum) (l : level Rnum).

(** Regularisation actually added to the Hessian. *)
Definition reg_used (b : backend) (flag : bool) : R :=
  match b with Fast | Prox | Osqp => if flag then @reg0 Rnum else 0%R | _ => @reg0 Rnum end.
Definition quad (H : mat Rnum) (x : nat -> R) : R := rsum (mrows H) (fun i => x i * qrow H x i)%R.
Definition lin (g : vec Rnum) (x : nat -> R) : R := rsum (vlen g) (fun i => vget g i * x i)%R.
Definition offset (wc : R * constr Rnum) : R := (fst wc * sqnorm (mrows (c_mat (snd wc))) (vget (c_vec (snd wc))))%R.

Lemma gram_quad n m (A : nat -> nat -> R) (w : R) (x : nat -> R) :
  rsum n (fun i => x i * rsum n (fun j => rsum m (fun k => w * A k i * A k j) * x j))%R
  = (w * rsum m (fun k => rsum n (fun j => A k j * x j) * rsum n (fun j => A k j * x j)))%R.
Proof.
  assert (E : forall i, rsum n (fun j => rsum m (fun k => w * A k i * A k j) * x j)%R
                        = rsum m (fun k => w * A k i * rsum n (fun j => A k j * x j))%R).
  { intros i. transitivity (rsum n (fun j => rsum m (fun k => w * A k i * (A k j * x j)))%R).
    - apply rsum_ext. intros j _. rewrite <- rsum_scal_r. apply rsum_ext. intros k _. ring.
    - rewrite rsum_swap. apply rsum_ext. intros k _. apply rsum_scal. }
  transitivity (rsum n (fun i => rsum m (fun k => x i * (w * A k i * rsum n (fun j => A k j * x j))))%R).
  - apply rsum_ext. intros i _. rewrite E, <- rsum_scal. reflexivity.
  - rewrite rsum_swap, <- rsum_scal. apply rsum_ext. intros k _.
    transitivity (rsum n (fun i => w * rsum n (fun j => A k j * x j) * (A k i * x i))%R).
    + apply rsum_ext. intros i _. ring.
    + rewrite rsum_scal. ring.
Qed.
Lemma gram_lin n m (A : nat -> nat -> R) (b : nat -> R) (x : nat -> R) :
  rsum n (fun i => rsum m (fun k => A k i * b k) * x i)%R = rsum m (fun k => b k * rsum n (fun j => A k j * x j))%R.
Proof.
  transitivity (rsum n (fun i => rsum m (fun k => b k * (A k i * x i)))%R).
  - apply rsum_ext. intros i _. rewrite <- rsum_scal_r. apply rsum_ext. intros k _. ring.
  - rewrite rsum_swap. apply rsum_ext. intros k _. apply rsum_scal.
Qed.

Lemma add_cost_sem b s w c s' x : add_cost b s w c = Some s' -> 
  quad (q_H s') x = (quad (q_H s) x + w * sqnorm (mrows (c_mat c)) (qrow (c_mat c) x))%R /\
  lin (q_g s') x = (lin (q_g s) x - w * rsum (mrows (c_mat c)) (fun k => vget (c_vec c) k * qrow (c_mat c) x k))%R.
Proof.
  unfold add_cost, guard. destruct (_ && _) eqn:E; [|discriminate]. cbn [obind]. intros H; injection H as <-.
  repeat match goal with H : _ && _ = true |- _ => apply andb_prop in H as [? ?] end.
  repeat match goal with H : (_ =? _) = true |- _ => apply Nat.eqb_eq in H end.
  cbn [w_cost q_H q_g]. unfold quad, lin, qrow, sqnorm. cbn [mrows mcols mget vlen vget].
  set (n := mcols (c_mat c)) in *. set (m := mrows (c_mat c)) in *.
  rewrite <- H, <- H1, <- H2. split.
  - rewrite <- (gram_quad n m (mget (c_mat c)) w x), <- rsum_plus. apply rsum_ext. intros i _.
    rewrite <- Rmult_plus_distr_l, <- rsum_plus. f_equal. apply rsum_ext. intros j _. cbn. apply Rmult_plus_distr_r.
  - rewrite <- (gram_lin n m (mget (c_mat c)) (vget (c_vec c)) x), <- rsum_scal, <- rsum_minus. apply rsum_ext. intros i _.
    assert (X : rsum m (fun k => w * mget (c_mat c) k i * vget (c_vec c) k)%R = (w * rsum m (fun k => mget (c_mat c) k i * vget (c_vec c) k))%R).
    { rewrite <- rsum_scal. apply rsum_ext. intros k _. ring. }
    destruct b; cbn; [ring|rewrite X; ring|ring|rewrite X; ring|rewrite X; ring|ring].
Qed.
Lemma add_cost_sym b s w c s' : add_cost b s w c = Some s' ->
  (forall i j, mget (q_H s) i j = mget (q_H s) j i) -> forall i j, mget (q_H s') i j = mget (q_H s') j i.
Proof.
  unfold add_cost, guard. destruct (_ && _); [|discriminate]. cbn [obind]. intros H; injection H as <-.
  intros S i j. cbn [w_cost q_H mget]. rewrite (S i j).
  assert (X : rsum (mrows (c_mat c)) (fun k => w * mget (c_mat c) k i * mget (c_mat c) k j)%R
            = rsum (mrows (c_mat c)) (fun k => w * mget (c_mat c) k j * mget (c_mat c) k i)%R).
  { apply rsum_ext. intros k _. ring. }
  cbn in *. rewrite X. reflexivity.
Qed.
Lemma task_expand (wc : R * constr Rnum) x :
  task_cost wc x = (fst wc * sqnorm (mrows (c_mat (snd wc))) (qrow (c_mat (snd wc)) x)
    - 2 * (fst wc * rsum (mrows (c_mat (snd wc))) (fun k => vget (c_vec (snd wc)) k * qrow (c_mat (snd wc)) x k)) + offset wc)%R.
Proof.
  unfold task_cost, offset, sqnorm, residual. destruct wc as [w c]. cbn [fst snd].
  set (m := mrows (c_mat c)).
  assert (E : rsum m (fun i => (qrow (c_mat c) x i - vget (c_vec c) i) * (qrow (c_mat c) x i - vget (c_vec c) i))%R
     = (rsum m (fun i => qrow (c_mat c) x i * qrow (c_mat c) x i)
        - 2 * rsum m (fun k => vget (c_vec c) k * qrow (c_mat c) x k) + rsum m (fun i => vget (c_vec c) i * vget (c_vec c) i))%R).
  { rewrite <- rsum_scal, <- rsum_minus, <- rsum_plus. apply rsum_ext. intros k _. ring. }
  rewrite E. ring.
Qed.
Lemma add_costs_sem b l x : forall s s', add_costs b s l = Ret s' tt ->
  quad (q_H s') x = (quad (q_H s) x + lsum (fun wc => fst wc * sqnorm (mrows (c_mat (snd wc))) (qrow (c_mat (snd wc)) x)) l)%R /\
  (/ 2 * quad (q_H s') x + lin (q_g s') x
   = / 2 * quad (q_H s) x + lin (q_g s) x + / 2 * lsum (fun wc => task_cost wc x) l - / 2 * lsum offset l)%R.
Proof.
  induction l as [|[w c] l IH]; intros s s' H; cbn [add_costs] in H.
  - injection H as <-. unfold lsum; simpl. split; lra.
  - destruct (c_kind c); try discriminate. destruct (add_cost b s w c) as [s1|] eqn:E; [|discriminate].
    destruct (IH _ _ H) as [A B]. destruct (add_cost_sem _ _ _ _ _ x E) as [Q L].
    rewrite !lsum_cons, task_expand. cbn [fst snd] in *. split; [rewrite A, Q; ring|]. rewrite B, Q, L. field.
Qed.
Lemma add_costs_sym b l : forall s s', add_costs b s l = Ret s' tt ->
  (forall i j, mget (q_H s) i j = mget (q_H s) j i) -> forall i j, mget (q_H s') i j = mget (q_H s') j i.
Proof.
  induction l as [|[w c] l IH]; intros s s' H S; cbn [add_costs] in H.
  - injection H as <-. exact S.
  - destruct (c_kind c); try discriminate. destruct (add_cost b s w c) as [s1|] eqn:E; [|discriminate].
    eapply IH; [exact H|]. eapply add_cost_sym; eauto.
Qed.
Lemma diag_quad n (h : nat -> nat -> R) (r : R) x :
  rsum n (fun i => x i * rsum n (fun j => (if i =? j then h i j + r else h i j) * x j))%R
  = (rsum n (fun i => x i * rsum n (fun j => h i j * x j)) + r * rsum n (fun i => x i * x i))%R.
Proof.
  rewrite <- rsum_scal, <- rsum_plus. apply rsum_ext. intros i Hi.
  assert (E : rsum n (fun j => (if i =? j then h i j + r else h i j) * x j)%R
            = (rsum n (fun j => h i j * x j) + r * x i)%R).
  { transitivity (rsum n (fun j => h i j * x j + (if i =? j then r else 0) * x j)%R).
    - apply rsum_ext. intros j _. destruct (i =? j); ring.
    - rewrite rsum_plus. f_equal. rewrite (rsum_single n i); [rewrite Nat.eqb_refl; reflexivity|exact Hi|].
      intros j _ Hj. replace (i =? j) with false by (symmetry; apply Nat.eqb_neq; lia). ring. }
  rewrite E. ring.
Qed.
Lemma add_reg_sem b flag s s' x : mrows (q_H s) = q_n s -> mcols (q_H s) = q_n s -> add_reg b flag s = Some s' ->
  quad (q_H s') x = (quad (q_H s) x + reg_used b flag * sqnorm (q_n s) x)%R /\ q_g s' = q_g s /\
  ((forall i j, mget (q_H s) i j = mget (q_H s) j i) -> forall i j, mget (q_H s') i j = mget (q_H s') j i).
Proof.
  intros H1 H2 H.
  assert (X : forall r, quad (mkMat (mrows (q_H s)) (mcols (q_H s)) (fun i j => if i =? j then (mget (q_H s) i j + r)%num else mget (q_H s) i j)) x
                        = (quad (q_H s) x + r * sqnorm (q_n s) x)%R).
  { intros r. unfold quad, qrow, sqnorm. cbn [mrows mcols mget]. rewrite H1, H2. apply diag_quad. }
  assert (Y : forall r, (forall i j, mget (q_H s) i j = mget (q_H s) j i) -> forall i j,
     mget (mkMat (mrows (q_H s)) (mcols (q_H s)) (fun i j => if i =? j then (mget (q_H s) i j + r)%num else mget (q_H s) i j)) i j =
     mget (mkMat (mrows (q_H s)) (mcols (q_H s)) (fun i j => if i =? j then (mget (q_H s) i j + r)%num else mget (q_H s) i j)) j i).
  { intros r S i j. cbn [mget]. rewrite (Nat.eqb_sym j i), (S i j). reflexivity. }
  set (d := fun r : R => mkMat (mrows (q_H s)) (mcols (q_H s)) (fun i j => if i =? j then (mget (q_H s) i j + r)%num else mget (q_H s) i j)) in *.
  assert (Z : exists r : R, r = reg_used b flag /\ (s' = w_cost s (d r) (q_g s) \/ (r = 0%R /\ s' = s))).
  { unfold add_reg, guard in H. exists (reg_used b flag). split; [reflexivity|]. unfold reg_used.
    assert (M1 : (@reg0 Rnum * n1)%num = @reg0 Rnum) by (cbn; apply Rmult_1_r). rewrite M1 in H.
    destruct b; try destruct flag; try (destruct (_ && _); [cbn [obind] in H|discriminate]);
      injection H as <-; auto. }
  destruct Z as (r & <- & [->|[-> ->]]).
  - cbn [w_cost q_H q_g]. split; [apply X|split; [reflexivity|apply Y]].
  - split; [ring|auto].
Qed.

Lemma zero_sum n (f : nat -> R) : rsum n (fun i => f i * 0)%R = 0%R.
Proof. apply rsum_zero. intros i _. ring. Qed.
Lemma zero_quad s x : quad (q_H (zero_cost s)) x = 0%R.
Proof.
  unfold quad, qrow. cbn [zero_cost w_cost q_H mzero mrows mcols mget]. apply rsum_zero. intros i _.
  rewrite rsum_zero; [ring|]. intros j _. cbn. ring.
Qed.
Lemma zero_lin s x : lin (q_g (zero_cost s)) x = 0%R.
Proof. unfold lin. cbn [zero_cost w_cost q_g vzero vlen vget]. apply rsum_zero. intros i _. cbn. ring. Qed.

Theorem level1_cost b flag s cl1 s' x : sized b s -> level1 b flag s cl1 = Ret s' tt ->
  q_n s' = q_n s /\
  qp_cost s' x = (least_squares (reg_used b flag) (q_n s') cl1 x - / 2 * lsum offset cl1)%R /\
  quad (q_H s') x = (lsum (fun wc => fst wc * sqnorm (mrows (c_mat (snd wc))) (qrow (c_mat (snd wc)) x)) cl1
                     + reg_used b flag * sqnorm (q_n s') x)%R /\
  (forall i j, mget (q_H s') i j = mget (q_H s') j i).
Proof.
  intros S H. unfold level1 in H. destruct (add_costs b (zero_cost s) cl1) as [s1 []|s1|] eqn:E; try discriminate.
  destruct (add_reg b flag s1) as [s2|] eqn:E2; [|discriminate]. injection H as <-.
  destruct (add_costs_sem b cl1 x _ _ E) as [Q C].
  pose proof (add_costs_dims b cl1 (zero_cost s)) as D. rewrite E in D. destruct D as [D _].
  unfold dims in D. cbn [zero_cost w_cost q_n q_neq q_nin q_CE q_ce0 q_CI q_cil q_ciu q_H q_g q_lb q_ub mzero mrows mcols vzero vlen] in D.
  injection D as Dn _ _ _ _ _ _ _ _ _ Dr Dc Dg _ _.
  destruct S as (S1 & S2 & S3 & _).
  destruct (add_reg_sem b flag s1 s2 x) as (Q2 & G2 & SY); [congruence|congruence|exact E2|].
  apply add_reg_dims in E2 as [D2 _]. unfold dims in D2. injection D2 as Dn2 _ _ _ _ _ _ _ _ _ _ _ _ _ _.
  rewrite Dn2. split; [congruence|]. rewrite zero_quad in Q, C. rewrite zero_lin in C.
  split; [|split].
  - unfold least_squares. change (qp_cost s2 x) with (/ 2 * quad (q_H s2) x + lin (q_g s2) x)%R.
    rewrite Q2, G2, !Rmult_plus_distr_l. rewrite <- Dn2 in *. lra.
  - rewrite Q2, Q. ring.
  - apply SY. eapply add_costs_sym; [exact E|]. intros i j. reflexivity.
Qed.

Theorem prepare_cost b dbg jk s cl0 cl1 flag s' x : sized b s -> prepare b dbg jk s [cl0; cl1] flag = Ret s' tt ->
  qp_cost s' x = (least_squares (reg_used b flag) (q_n s') cl1 x - / 2 * lsum offset cl1)%R /\
  quad (q_H s') x = (lsum (fun wc => fst wc * sqnorm (mrows (c_mat (snd wc))) (qrow (c_mat (snd wc)) x)) cl1
                     + reg_used b flag * sqnorm (q_n s') x)%R /\
  (forall i j, mget (q_H s') i j = mget (q_H s') j i).
Proof.
  intros S H. cbn [prepare List.length Nat.ltb Nat.leb] in H.
  destruct (level0 b dbg jk s cl0) as [s1|] eqn:E; [|discriminate]. apply level0_sized in E; [|exact S].
  apply (level1_cost b flag s1 cl1 s' x E H).
Qed.

(** Positive definiteness and uniqueness of the minimiser. *)
Lemma sqnorm_nonneg n x : (0 <= sqnorm n x)%R.
Proof. apply rsum_nonneg. intros i _. apply Rle_0_sqr. Qed.
Lemma sqnorm_zero n x : (sqnorm n x <= 0)%R -> forall i, i < n -> x i = 0%R.
Proof.
  unfold sqnorm. induction n as [|n IH]; intros H i Hi; [lia|].
  rewrite rsum_S in H. pose proof (sqnorm_nonneg n x) as P. unfold sqnorm in P.
  assert (Q : (0 <= x n * x n)%R) by apply Rle_0_sqr.
  destruct (Nat.eq_dec i n) as [->|Hn]; [|apply IH; [lra|lia]].
  apply Rsqr_0_uniq. unfold Rsqr. lra.
Qed.
Lemma quad_lower r n cl1 x : (forall w c, In (w, c) cl1 -> (0 <= w)%R) ->
  (r * sqnorm n x <= lsum (fun wc => fst wc * sqnorm (mrows (c_mat (snd wc))) (qrow (c_mat (snd wc)) x)) cl1 + r * sqnorm n x)%R.
Proof.
  intros H. assert (P : (0 <= lsum (fun wc => fst wc * sqnorm (mrows (c_mat (snd wc))) (qrow (c_mat (snd wc)) x)) cl1)%R); [|lra].
  induction cl1 as [|[w c] l IH]; [unfold lsum; simpl; lra|]. rewrite lsum_cons. cbn [fst snd].
  assert (0 <= w)%R by (apply (H w c); left; reflexivity).
  pose proof (sqnorm_nonneg (mrows (c_mat c)) (qrow (c_mat c) x)).
  assert (0 <= w * sqnorm (mrows (c_mat c)) (qrow (c_mat c) x))%R by (apply Rmult_le_pos; auto).
  assert (X : (0 <= lsum (fun wc => fst wc * sqnorm (mrows (c_mat (snd wc))) (qrow (c_mat (snd wc)) x)) l)%R).
  { apply IH. intros w' c' Hin. apply (H w' c'). right; exact Hin. }
  apply Rplus_le_le_0_compat; assumption.
Qed.
Definition mid (x y : nat -> R) : nat -> R := fun i => ((x i + y i) / 2)%R.
Lemma qrow_mid M x y k : qrow M (mid x y) k = ((qrow M x k + qrow M y k) / 2)%R.
Proof.
  unfold qrow, Rdiv. rewrite Rmult_comm. rewrite <- rsum_plus, <- rsum_scal. apply rsum_ext. intros j _. unfold mid. field.
Qed.
Lemma qrow_minus M x y k : qrow M (fun i => x i - y i)%R k = (qrow M x k - qrow M y k)%R.
Proof. unfold qrow. rewrite <- rsum_minus. apply rsum_ext. intros j _. ring. Qed.
Lemma cost_mid s x y :
  qp_cost s (mid x y) = ((qp_cost s x + qp_cost s y) / 2 - / 8 * quad (q_H s) (fun i => x i - y i)%R)%R.
Proof.
  change (qp_cost s) with (fun z => / 2 * quad (q_H s) z + lin (q_g s) z)%R. cbn beta.
  assert (Q : quad (q_H s) (mid x y) = (/ 2 * quad (q_H s) x + / 2 * quad (q_H s) y - / 4 * quad (q_H s) (fun i => x i - y i))%R).
  { unfold quad. rewrite <- !rsum_scal, <- rsum_plus, <- rsum_minus. apply rsum_ext. intros i _.
    rewrite qrow_mid, qrow_minus. unfold mid. field. }
  assert (L : lin (q_g s) (mid x y) = (/ 2 * lin (q_g s) x + / 2 * lin (q_g s) y)%R).
  { unfold lin. rewrite <- !rsum_scal, <- rsum_plus. apply rsum_ext. intros i _. unfold mid. field. }
  rewrite Q, L. field.
Qed.
Lemma reg0_pos : (0 < @reg0 Rnum)%R.
Proof. cbn. unfold Q2R. cbn. lra. Qed.
(** At most one minimiser over any set closed under midpoints. *)
Theorem unique_min s (F : (nat -> R) -> Prop) (r : R) x y : (0 < r)%R ->
  (forall z, (r * sqnorm (q_n s) z <= quad (q_H s) z)%R) ->
  (forall u v, F u -> F v -> F (mid u v)) ->
  F x -> F y -> (forall z, F z -> (qp_cost s x <= qp_cost s z)%R) -> (forall z, F z -> (qp_cost s y <= qp_cost s z)%R) ->
  forall i, i < q_n s -> x i = y i.
Proof.
  intros Hr Hq Hm Fx Fy Mx My i Hi.
  pose proof (Mx _ (Hm _ _ Fx Fy)) as A. rewrite cost_mid in A. pose proof (Mx _ Fy) as B. pose proof (My _ Fx) as C.
  specialize (Hq (fun i => x i - y i)%R).
  assert (Z : (sqnorm (q_n s) (fun i => x i - y i) <= 0)%R).
  { pose proof (sqnorm_nonneg (q_n s) (fun i => x i - y i)%R) as P.
    assert (r * sqnorm (q_n s) (fun i => x i - y i) <= 0)%R by lra.
    apply Rnot_lt_le. intros Q. assert (0 < r * sqnorm (q_n s) (fun i => x i - y i)%R)%R by (apply Rmult_lt_0_compat; auto). lra. }
  pose proof (sqnorm_zero _ _ Z i Hi) as E. cbn beta in E. lra.
Qed.
Lemma sat_mid (c : constr Rnum) x y : sat c x -> sat c y -> sat c (mid x y).
Proof.
  unfold sat. change (lhs c) with (fun z i => match c_kind c with CBound => z i | _ => qrow (c_mat c) z i end).
  destruct (c_kind c); cbn beta iota; intros A B k Hk; specialize (A k Hk); specialize (B k Hk).
  - rewrite qrow_mid, A, B. field.
  - rewrite qrow_mid. lra.
  - unfold mid. lra.
Qed.
Lemma hard_mid (cl0 : level Rnum) x y : hard_ok cl0 x -> hard_ok cl0 y -> hard_ok cl0 (mid x y).
Proof. intros A B w c Hin. apply sat_mid; [apply (A w)|apply (B w)]; exact Hin. Qed.
Lemma box_mid b (cl0 : level Rnum) n x y : qpmad_box b cl0 n x -> qpmad_box b cl0 n y -> qpmad_box b cl0 n (mid x y).
Proof.
  intros A B E H k Hk. specialize (A E H k Hk). specialize (B E H k Hk). unfold mid. lra.
Qed.
