(** Meaning of the QP data over the reals. *)
From Coq Require Import List Arith Bool Reals Lia Lra QArith Qreals.
From Verif Require Import Scalar Outcome Linalg Constraint FormSpec FormPhysSpec RSum Solvers SolverSpec SolverSizes.
Import ListNotations.
Open Scope nat_scope.
#[local] Canonical Rnum.
#[local] Opaque nsum.

Ltac prods := repeat match goal with p : (_ * _)%type |- _ => destruct p end.

Lemma qrow_ext (M M' : mat Rnum) x k k' : mcols M = mcols M' ->
  (forall j, mget M k j = mget M' k' j) -> qrow M x k = qrow M' x k'.
Proof. intros E H. unfold qrow. rewrite <- E. apply rsum_ext. intros j _. rewrite H. reflexivity. Qed.
Lemma qrow_opp (M : mat Rnum) x k : qrow (mopp M) x k = (- qrow M x k)%R.
Proof.
  unfold qrow. cbn [mopp mcols mget]. rewrite <- rsum_opp. apply rsum_ext. intros j _. cbn. ring.
Qed.
Lemma qrow_id r n x k : k < n -> qrow (@mident Rnum r n) x k = x k.
Proof.
  intros H. unfold qrow. cbn [mident mcols mget].
  etransitivity; [apply (rsum_single n k)|].
  - exact H.
  - intros i _ Hi. replace (k =? i) with false by (symmetry; apply Nat.eqb_neq; lia). cbn. ring.
  - rewrite Nat.eqb_refl. cbn. ring.
Qed.

Lemma put_rows (Rel : R -> R -> Prop) (M : mat Rnum) v i r A a M' v' x : put_spec M v i r A a M' v' ->
  (forall k, k < i + r -> Rel (qrow M' x k) (vget v' k)) <->
  (forall k, k < i -> Rel (qrow M x k) (vget v k)) /\ (forall k, k < r -> Rel (qrow A x k) (vget a k)).
Proof.
  intros [H1 H2]. apply mset_rows_inv in H1 as (_ & _ & C & _ & C' & E1 & E1').
  apply vset_seg_inv in H2 as (_ & _ & _ & E2 & E2'). split.
  - intros H. split; intros k Hk.
    + rewrite <- (E2' k) by lia. rewrite <- (qrow_ext M' M x k k); [apply H; lia|auto|]. intros j; apply E1'; lia.
    + replace (vget a k) with (vget v' (i + k)) by (rewrite E2 by lia; f_equal; lia).
      rewrite <- (qrow_ext M' A x (i + k) k); [apply H; lia|congruence|].
      intros j. rewrite E1 by lia. f_equal; lia.
  - intros [Ha Hb] k Hk. destruct (le_lt_dec i k).
    + rewrite E2 by lia. rewrite (qrow_ext M' A x k (k - i)); [apply Hb; lia|congruence|]. intros j; apply E1; lia.
    + rewrite E2' by lia. rewrite (qrow_ext M' M x k k); [apply Ha; lia|auto|]. intros j; apply E1'; lia.
Qed.
Lemma put2_rows (M : mat Rnum) l u i r A a b M' l' u' x :
  put_spec M l i r A a M' l' -> put_spec M u i r A b M' u' ->
  (forall k, k < i + r -> (vget l' k <= qrow M' x k <= vget u' k)%R) <->
  (forall k, k < i -> (vget l k <= qrow M x k <= vget u k)%R) /\ (forall k, k < r -> (vget a k <= qrow A x k <= vget b k)%R).
Proof.
  intros H1 H2. pose proof (put_rows (fun p q => (q <= p)%R) _ _ _ _ _ _ _ _ x H1) as X.
  pose proof (put_rows (fun p q => (p <= q)%R) _ _ _ _ _ _ _ _ x H2) as Y. cbn beta in X, Y. split.
  - intros H. destruct X as [X _]. destruct Y as [Y _].
    destruct X as [X1 X2]; [intros k Hk; apply (H k Hk)|]. destruct Y as [Y1 Y2]; [intros k Hk; apply (H k Hk)|].
    split; intros k Hk; split; auto.
  - intros [Ha Hb]. destruct X as [_ X]. destruct Y as [_ Y].
    assert (X' := X (conj (fun k h => proj1 (Ha k h)) (fun k h => proj1 (Hb k h)))).
    assert (Y' := Y (conj (fun k h => proj2 (Ha k h)) (fun k h => proj2 (Hb k h)))).
    intros k Hk; split; auto.
Qed.

Definition E1 (s : sst Rnum) i x := forall k, k < i -> (qrow (q_CE s) x k + vget (q_ce0 s) k = 0)%R.
Definition I1 (s : sst Rnum) i x := forall k, k < i -> (0 <= qrow (q_CI s) x k + vget (q_cil s) k)%R.
Definition E2 (s : sst Rnum) i x := forall k, k < i -> qrow (q_CE s) x k = vget (q_ce0 s) k.
Definition I2 (s : sst Rnum) i x := forall k, k < i -> (vget (q_cil s) k <= qrow (q_CI s) x k <= vget (q_ciu s) k)%R.
Definition B2 (s : sst Rnum) n (x : nat -> R) := forall k, k < n -> (vget (q_lb s) k <= x k <= vget (q_ub s) k)%R.

Lemma sat_eq c x : c_kind c = CEq -> sat c x <-> (forall k, k < vlen (c_vec c) -> qrow (c_mat c) x k = vget (c_vec c) k).
Proof. intros H. unfold sat, lhs. rewrite H. reflexivity. Qed.
Lemma sat_ineq c x : c_kind c = CIneq ->
  sat c x <-> (forall k, k < vlen (c_lb c) -> (vget (c_lb c) k <= qrow (c_mat c) x k <= vget (c_ub c) k)%R).
Proof. intros H. unfold sat, lhs. rewrite H. reflexivity. Qed.
Lemma sat_bound c x : c_kind c = CBound ->
  sat c x <-> (forall k, k < vlen (c_lb c) -> (vget (c_lb c) k <= x k <= vget (c_ub c) k)%R).
Proof. intros H. unfold sat, lhs. rewrite H. reflexivity. Qed.

Lemma fill_one_sem n s ie ii w c s' ie' ii' x : q_n s = n -> mcols (q_CI s) = n -> cwf n c ->
  fill_one (s, ie, ii) (w, c) = Some (s', ie', ii') ->
  (E1 s' ie' x /\ I1 s' ii' x) <-> (E1 s ie x /\ I1 s ii x) /\ sat c x.
Proof.
  intros Hn Hc W H. unfold fill_one in H. cbn [snd] in H.
  destruct (cwf_rows n c W) as [Hr _]. rewrite Hr in H. cbn [obind] in H. unfold cwf, nrows in *.
  destruct (c_kind c) eqn:Ek.
  - obi H. prods. injection H as <- <- <-. apply put_inv in E. destruct W as [W1 W2].
    pose proof (put_rows (fun p q => (p + q = 0)%R) _ _ _ _ _ _ _ _ x E) as X. cbn beta in X.
    unfold E1, I1. cbn [w_eq q_CE q_ce0 q_CI q_cil]. rewrite X, (sat_eq c x Ek), W2.
    assert (Y : (forall k, k < mrows (c_mat c) -> (qrow (c_mat c) x k + vget (vopp (c_vec c)) k = 0)%R) <->
                (forall k, k < mrows (c_mat c) -> qrow (c_mat c) x k = vget (c_vec c) k)).
    { split; intros Z k Hk; specialize (Z k Hk); cbn [vopp vget nopp] in *; cbn in *; lra. }
    rewrite Y. tauto.
  - obi H. prods. cbn beta iota in H. obi H. prods. injection H as <- <- <-. apply put_inv in E, E0. destruct W as (W1 & W2 & W3).
    pose proof (put_rows (fun p q => (0 <= p + q)%R) _ _ _ _ _ _ _ _ x E) as X. cbn beta in X.
    pose proof (put_rows (fun p q => (0 <= p + q)%R) _ _ _ _ _ _ _ _ x E0) as X0. cbn beta in X0.
    unfold E1, I1. cbn [w_in q_CE q_ce0 q_CI q_cil]. rewrite X0, X, (sat_ineq c x Ek), W2.
    assert (Y : (forall k, k < mrows (c_mat c) -> (0 <= qrow (c_mat c) x k + vget (vopp (c_lb c)) k)%R) /\
                (forall k, k < mrows (c_mat c) -> (0 <= qrow (mopp (c_mat c)) x k + vget (c_ub c) k)%R) <->
                (forall k, k < mrows (c_mat c) -> (vget (c_lb c) k <= qrow (c_mat c) x k <= vget (c_ub c) k)%R)).
    { split.
      - intros [Z1 Z2] k Hk. specialize (Z1 k Hk). specialize (Z2 k Hk). rewrite qrow_opp in Z2. cbn in *; lra.
      - intros Z. split; intros k Hk; specialize (Z k Hk); rewrite ?qrow_opp; cbn in *; lra. }
    tauto.
  - obi H. prods. cbn beta iota in H. obi H. prods. injection H as <- <- <-. apply put_inv in E, E0. destruct W as (W2 & W3).
    pose proof (put_rows (fun p q => (0 <= p + q)%R) _ _ _ _ _ _ _ _ x E) as X. cbn beta in X.
    pose proof (put_rows (fun p q => (0 <= p + q)%R) _ _ _ _ _ _ _ _ x E0) as X0. cbn beta in X0.
    unfold E1, I1. cbn [w_in q_CE q_ce0 q_CI q_cil]. rewrite X0, X, (sat_bound c x Ek), W2. rewrite Hc, Hn.
    assert (Y : (forall k, k < n -> (0 <= qrow (mident n n) x k + vget (vopp (c_lb c)) k)%R) /\
                (forall k, k < n -> (0 <= qrow (mopp (mident n n)) x k + vget (c_ub c) k)%R) <->
                (forall k, k < n -> (vget (c_lb c) k <= x k <= vget (c_ub c) k)%R)).
    { split.
      - intros [Z1 Z2] k Hk. specialize (Z1 k Hk). specialize (Z2 k Hk).
        rewrite qrow_opp in Z2. rewrite qrow_id in Z1, Z2 by exact Hk. cbn in *; lra.
      - intros Z. split; intros k Hk; specialize (Z k Hk); rewrite ?qrow_opp, qrow_id by exact Hk; cbn in *; lra. }
    tauto.
Qed.
Lemma fill_prox_sem n s ie ii w c s' ie' ii' x : mcols (q_CI s) = n -> cwf n c ->
  fill_prox (s, ie, ii) (w, c) = Some (s', ie', ii') ->
  (E2 s' ie' x /\ I2 s' ii' x) <-> (E2 s ie x /\ I2 s ii x) /\ sat c x.
Proof.
  intros Hc W H. unfold fill_prox in H. cbn [snd] in H.
  destruct (cwf_rows n c W) as [Hr _]. rewrite Hr in H. cbn [obind] in H. unfold cwf, nrows in *.
  destruct (c_kind c) eqn:Ek; obi H; prods; injection H as <- <- <-; unfold E2, I2; cbn [w_in w_eq q_CE q_ce0 q_CI q_cil q_ciu].
  - apply put_inv in E. destruct W as [W1 W2].
    pose proof (put_rows (fun p q => p = q) _ _ _ _ _ _ _ _ x E) as X. cbn beta in X.
    rewrite X, (sat_eq c x Ek), W2. tauto.
  - apply put2_inv in E as [E E0]. destruct W as (W1 & W2 & W3).
    rewrite (put2_rows _ _ _ _ _ _ _ _ _ _ _ x E E0), (sat_ineq c x Ek), W2. tauto.
  - apply put2_inv in E as [E E0]. destruct W as (W2 & W3).
    rewrite (put2_rows _ _ _ _ _ _ _ _ _ _ _ x E E0), (sat_bound c x Ek), W2, Hc.
    assert (Y : (forall k, k < n -> (vget (c_lb c) k <= qrow (mident n n) x k <= vget (c_ub c) k)%R) <->
                (forall k, k < n -> (vget (c_lb c) k <= x k <= vget (c_ub c) k)%R)).
    { split; intros Z k Hk; specialize (Z k Hk); rewrite qrow_id in *; auto. }
    tauto.
Qed.
Lemma fill_osqp_sem n s ie ii w c s' ie' ii' x : mcols (q_CI s) = n -> cwf n c ->
  fill_osqp (s, ie, ii) (w, c) = Some (s', ie', ii') -> I2 s' ii' x <-> I2 s ii x /\ sat c x.
Proof.
  intros Hc W H. unfold fill_osqp in H. cbn [snd] in H.
  destruct (cwf_rows n c W) as [Hr _]. rewrite Hr in H. cbn [obind] in H. unfold cwf, nrows in *.
  destruct (c_kind c) eqn:Ek; obi H; prods; injection H as <- <- <-; unfold I2; cbn [w_in w_eq q_CE q_ce0 q_CI q_cil q_ciu];
    apply put2_inv in E as [E E0]; rewrite (put2_rows _ _ _ _ _ _ _ _ _ _ _ x E E0).
  - destruct W as [W1 W2]. rewrite (sat_eq c x Ek), W2.
    assert (Y : (forall k, k < mrows (c_mat c) -> (vget (c_vec c) k <= qrow (c_mat c) x k <= vget (c_vec c) k)%R) <->
                (forall k, k < mrows (c_mat c) -> qrow (c_mat c) x k = vget (c_vec c) k)).
    { split; intros Z k Hk; specialize (Z k Hk); cbn in *; lra. }
    tauto.
  - destruct W as (W1 & W2 & W3). rewrite (sat_ineq c x Ek), W2. tauto.
  - destruct W as (W2 & W3). rewrite (sat_bound c x Ek), W2, Hc.
    assert (Y : (forall k, k < n -> (vget (c_lb c) k <= qrow (mident n n) x k <= vget (c_ub c) k)%R) <->
                (forall k, k < n -> (vget (c_lb c) k <= x k <= vget (c_ub c) k)%R)).
    { split; intros Z k Hk; specialize (Z k Hk); rewrite qrow_id in *; auto. }
    tauto.
Qed.
Lemma rmax_le (u v x : R) : (@nmax Rnum u v <= x)%R <-> (u <= x /\ v <= x)%R.
Proof.
  unfold nmax. cbn. destruct (Rltb u v) eqn:E.
  - apply Rltb_true in E. lra.
  - apply Rltb_false in E. lra.
Qed.
Lemma rmin_le (u v x : R) : (x <= @nmin Rnum u v)%R <-> (x <= u /\ x <= v)%R.
Proof.
  unfold nmin. cbn. destruct (Rltb v u) eqn:E.
  - apply Rltb_true in E. lra.
  - apply Rltb_false in E. lra.
Qed.
Lemma fill_qpmad_sem n s ie ii w c s' ie' ii' x : cwf n c ->
  fill_qpmad (s, ie, ii) (w, c) = Some (s', ie', ii') -> (I2 s' ii' x /\ B2 s' n x) <-> (I2 s ii x /\ B2 s n x) /\ sat c x.
Proof.
  intros W H. unfold fill_qpmad in H. cbn [snd] in H.
  destruct (cwf_rows n c W) as [Hr _]. rewrite Hr in H. cbn [obind] in H. unfold cwf, nrows in *.
  destruct (c_kind c) eqn:Ek.
  - obi H; prods; injection H as <- <- <-; unfold I2, B2; cbn [w_in w_bnd q_lb q_ub q_CE q_ce0 q_CI q_cil q_ciu].
    apply put2_inv in E as [E E0]; rewrite (put2_rows _ _ _ _ _ _ _ _ _ _ _ x E E0).
    destruct W as [W1 W2]. rewrite (sat_eq c x Ek), W2.
    assert (Y : (forall k, k < mrows (c_mat c) -> (vget (c_vec c) k <= qrow (c_mat c) x k <= vget (c_vec c) k)%R) <->
                (forall k, k < mrows (c_mat c) -> qrow (c_mat c) x k = vget (c_vec c) k)).
    { split; intros Z k Hk; specialize (Z k Hk); cbn in *; lra. }
    tauto.
  - obi H; prods; injection H as <- <- <-; unfold I2, B2; cbn [w_in w_bnd q_lb q_ub q_CE q_ce0 q_CI q_cil q_ciu].
    apply put2_inv in E as [E E0]; rewrite (put2_rows _ _ _ _ _ _ _ _ _ _ _ x E E0).
    destruct W as (W1 & W2 & W3). rewrite (sat_ineq c x Ek), W2. tauto.
  - obi H. obi H. injection H as <- <- <-. unfold I2, B2; cbn [w_in w_bnd q_lb q_ub q_CE q_ce0 q_CI q_cil q_ciu].
    apply vmax_inv in E as (_ & _ & X). apply vmin_inv in E0 as (_ & _ & Y). destruct W as (W2 & W3).
    rewrite (sat_bound c x Ek), W2.
    assert (Z : (forall k, k < n -> (vget v k <= x k <= vget v0 k)%R) <->
                (forall k, k < n -> (vget (q_lb s) k <= x k <= vget (q_ub s) k)%R) /\
                (forall k, k < n -> (vget (c_lb c) k <= x k <= vget (c_ub c) k)%R)).
    { split.
      - intros Z. split; intros k Hk; specialize (Z k Hk); rewrite X, Y in Z; rewrite rmax_le, rmin_le in Z; tauto.
      - intros [Z1 Z2] k Hk. specialize (Z1 k Hk). specialize (Z2 k Hk). rewrite X, Y, rmax_le, rmin_le. tauto. }
    tauto.
Qed.

(** Constraints encoded in the rows filled so far. *)
Definition enc b (s : sst Rnum) n ie ii x : Prop :=
  match b with
  | Eiq | Fast | Rt _ _ _ => E1 s ie x /\ I1 s ii x
  | Prox => E2 s ie x /\ I2 s ii x
  | Osqp => I2 s ii x
  | Qpmad => I2 s ii x /\ B2 s n x
  end.
Lemma fill_sem b n s ie ii w c s' ie' ii' x : q_n s = n -> mcols (q_CI s) = n -> cwf n c ->
  fill b (s, ie, ii) (w, c) = Some (s', ie', ii') -> enc b s' n ie' ii' x <-> enc b s n ie ii x /\ sat c x.
Proof.
  intros Hn Hc W H. destruct b; cbn [fill enc] in *.
  1,2,3: eapply fill_one_sem; eauto.
  - eapply fill_prox_sem; eauto.
  - eapply fill_osqp_sem; eauto.
  - eapply fill_qpmad_sem; eauto.
Qed.
Lemma fills_sem b n l x : forall s ie ii s' ie' ii', q_n s = n -> mcols (q_CI s) = n -> lwf n l ->
  ofold (fill b) l (s, ie, ii) = Some (s', ie', ii') -> enc b s' n ie' ii' x <-> enc b s n ie ii x /\ hard_ok l x.
Proof.
  induction l as [|[w c] l IH]; intros s ie ii s' ie' ii' Hn Hc W H; cbn [ofold] in H.
  - injection H as <- <- <-. unfold hard_ok. split; [|tauto]. intros H; split; [exact H|intros w c []].
  - destruct (fill b (s, ie, ii) (w, c)) as [[[s1 ie1] ii1]|] eqn:E; [|discriminate].
    assert (Wc : cwf n c) by (apply (W w); left; reflexivity).
    pose proof (fill_sem b n s ie ii w c s1 ie1 ii1 x Hn Hc Wc E) as X.
    destruct (fill_dims _ _ _ _ _ _ _ _ E) as [D _]. unfold dims in D. injection D as Dn _ _ _ _ _ _ Dc _ _ _ _ _ _ _.
    rewrite (IH s1 ie1 ii1 s' ie' ii'); [|congruence|congruence| |exact H].
    2:{ intros w' c' Hin. apply (W w'). right; exact Hin. }
    rewrite X. unfold hard_ok. split.
    + intros [[A B] C]. split; [exact A|]. intros w' c' [Heq|Hin]; [injection Heq as <- <-; exact B|eauto].
    + intros [A B]. split; [split; [exact A|]|].
      * apply (B w). left; reflexivity.
      * intros w' c' Hin. apply (B w'). right; exact Hin.
Qed.

(** Without bounds, qpmad's rows are filled as osqp's. *)
Lemma fills_qpmad_osqp (l : level Rnum) : ~ has_bound l -> forall st, ofold fill_qpmad l st = ofold fill_osqp l st.
Proof.
  induction l as [|[w c] l IH]; intros H st; [reflexivity|]. cbn [ofold].
  assert (Hk : c_kind c <> CBound) by (intros Hk; apply H; exists w, c; split; [left; reflexivity|exact Hk]).
  assert (E : fill_qpmad st (w, c) = fill_osqp st (w, c)).
  { unfold fill_qpmad, fill_osqp. destruct st as [[s ie] ii]. cbn [snd]. destruct (crows c); [|reflexivity].
    cbn [obind]. destruct (c_kind c); congruence. }
  rewrite E. destruct (fill_osqp st (w, c)); [|reflexivity]. apply IH.
  intros (w' & c' & Hin & Hk'). apply H. exists w', c'. split; [right; exact Hin|exact Hk'].
Qed.

Definition qpmad_box b (cl0 : level Rnum) n (x : nat -> R) : Prop :=
  b = Qpmad -> has_bound cl0 -> forall k, k < n -> (@dbl_min Rnum <= x k <= @dbl_max Rnum)%R.

Lemma level0_sem b dbg jk s cl0 s' x : sized b s -> fits b (q_n s') [cl0] -> level0 b dbg jk s cl0 = Some s' ->
  qp_feasible b s' x <-> hard_ok cl0 x /\ qpmad_box b cl0 (q_n s') x.
Proof.
  intros S F H. destruct cl0 as [|[w c] l].
  - cbn [level0] in H.
    assert (HE : hard_ok [] x /\ qpmad_box b [] (q_n s') x).
    { split; [intros w c []|]. intros _ (w & c & [] & _). }
    split; [intros _; exact HE|intros _].
    pose proof (resize_sized _ _ _ _ _ _ _ _ (note_sized b s false S) H) as S'.
    pose proof (resize_new _ _ _ _ _ _ _ _ (note_sized b s false S) H) as N. unfold sized in S'.
    assert (FB : b = Qpmad -> q_hasb s' = false).
    { intros ->. cbn [resize note_bounds] in H. injection H as <-. reflexivity. }
    unfold qp_feasible, two_sided. destruct b; cbn [fits rows_if fold_right] in F;
      try (split; intros k Hk; exfalso; intuition lia).
    + intros k Hk; exfalso; intuition lia.
    + split; [intros k Hk; exfalso; intuition lia|]. rewrite FB by reflexivity. discriminate.
  - cbn [level0 snd] in H. destruct (ccols c) as [n|] eqn:Hc; [cbn [obind] in H|discriminate].
    destruct (counts b n ((w, c) :: l)) as [q|] eqn:Hx; [cbn [obind] in H|discriminate].
    destruct (counts_spec _ _ _ _ Hx) as [W ->]. cbn beta iota in H.
    set (L := (w, c) :: l) in *. set (hb := match b with Qpmad => bound_in L | _ => false end) in *.
    destruct (resize b dbg jk (note_bounds b s hb) n (rows_if is_eq L) (rows_if (in_test b) L)) as [u|] eqn:Eu; [cbn [obind] in H|discriminate].
    assert (U : sized b u) by (eapply resize_sized; [apply note_sized; exact S|exact Eu]).
    pose proof (resize_new _ _ _ _ _ _ _ _ (note_sized b s hb S) Eu) as N1.
    destruct (ofold (fill b) L (reset_bounds b u, 0, 0)) as [[[v a1] b1]|] eqn:G; [cbn [obind] in H|discriminate].
    injection H as <-.
    assert (B : b = Qpmad -> q_hasb u = hb /\ q_hasb (reset_bounds b u) = hb).
    { intros ->. cbn [resize note_bounds] in Eu. injection Eu as <-. cbn [reset_bounds q_hasb w_bnd]. destruct hb; split; reflexivity. }
    destruct (fills_dims _ _ _ _ _ _ _ _ G) as [D Rr]. rewrite reset_dims in D.
    assert (V : sized b v) by (eapply dims_sized; eauto).
    assert (D' := D). unfold dims in D'. injection D' as DA DB DC _ _ _ DD _ _ _ _ _ _ _ _.
    assert (Rh : q_hasb v = q_hasb (reset_bounds b u)) by (unfold rest in Rr; congruence).
    assert (Wn : cwf n c) by (apply (W w); left; reflexivity).
    assert (Hn : q_n u = n).
    { destruct b; try exact (proj1 N1). unfold sized in U. cbn [fits] in F.
      (* rt: the columns of the rows written must be those of the fixed matrices *)
      destruct F as (F & _). rewrite <- DA.
      clear - G W V U Wn F DA DD. unfold L in G. cbn [ofold fill reset_bounds] in G.
      unfold fill_one at 1 in G. cbn [snd] in G. destruct (cwf_rows n c Wn) as [Hr _]. rewrite Hr in G. cbn [obind] in G.
      unfold cwf in Wn. unfold sized in V. unfold nrows in G. destruct (c_kind c).
      - destruct (put (q_CE u) (q_ce0 u) 0 (mrows (c_mat c)) (c_mat c) (vopp (c_vec c))) as [[A a]|] eqn:E; [|discriminate].
        apply put_inv in E. destruct E as [E _]. apply mset_rows_inv in E. intuition congruence.
      - destruct (put (q_CI u) (q_cil u) 0 (mrows (c_mat c)) (c_mat c) (vopp (c_lb c))) as [[A a]|] eqn:E; [|discriminate].
        apply put_inv in E. destruct E as [E _]. apply mset_rows_inv in E. intuition congruence.
      - destruct (put (q_CI u) (q_cil u) 0 (vlen (c_lb c)) (mident (vlen (c_lb c)) (mcols (q_CI u))) (vopp (c_lb c))) as [[A a]|]; [|discriminate].
        cbn [obind] in G.
        destruct (put A a (0 + vlen (c_lb c)) (vlen (c_lb c)) (mopp (mident (q_n u) (q_n u))) (c_ub c)) as [[A' a']|] eqn:E'; [|discriminate].
        apply put_inv in E'. destruct E' as [E' _]. apply mset_rows_inv in E' as (_ & E' & _). cbn [mopp mident mrows] in E'.
        intuition congruence. }
    rewrite DA, Hn in *.
    assert (RD := reset_dims b u). unfold dims in RD. injection RD as RDn _ _ _ _ _ _ RDc _ _ _ _ _ _ _.
    assert (C1 : q_n (reset_bounds b u) = n) by congruence.
    assert (C2 : mcols (q_CI (reset_bounds b u)) = n) by (unfold sized in U; intuition congruence).
    destruct (fills_next _ _ _ _ _ _ _ _ G) as [-> ->]. rewrite !Nat.add_0_l in *.
    assert (Full : qp_feasible b v x <-> match b with
       | Eiq | Fast | Rt _ _ _ => E1 v (use_e b L) x /\ I1 v (use_i b L) x
       | Prox => E2 v (use_e b L) x /\ I2 v (use_i b L) x
       | Osqp => I2 v (use_i b L) x
       | Qpmad => I2 v (use_i b L) x /\ (hb = true -> B2 v n x) end).
    { unfold qp_feasible, two_sided, E1, I1, E2, I2, B2. unfold sized in V. unfold use_e, use_i in *.
      destruct b; cbn [fits in_test] in *.
      - replace (mrows (q_CE v)) with (rows_if is_eq L) by intuition congruence.
        replace (mrows (q_CI v)) with (2 * rows_if is_in L) by intuition congruence. reflexivity.
      - replace (mrows (q_CE v)) with (rows_if is_eq L) by intuition congruence.
        replace (mrows (q_CI v)) with (2 * rows_if is_in L) by intuition congruence. reflexivity.
      - replace (mrows (q_CE v)) with (rows_if is_eq L) by intuition congruence.
        replace (mrows (q_CI v)) with (2 * rows_if is_in L) by intuition congruence. reflexivity.
      - replace (mrows (q_CE v)) with (rows_if is_eq L) by intuition congruence.
        replace (mrows (q_CI v)) with (rows_if is_in L) by intuition congruence. reflexivity.
      - replace (mrows (q_CI v)) with (rows_if is_eq L + rows_if is_in L) by intuition lia. reflexivity.
      - replace (mrows (q_CI v)) with (rows_if is_eq L + rows_if is_ineq L) by intuition congruence.
        rewrite DA. destruct (B eq_refl) as [_ B']. rewrite Rh, B'. reflexivity. }
    assert (NQ : b <> Qpmad -> qp_feasible b v x <-> hard_ok L x /\ qpmad_box b L n x).
    { intros Hb. rewrite Full. transitivity (enc b v n (use_e b L) (use_i b L) x); [destruct b; try reflexivity; congruence|].
      rewrite (fills_sem b n L x _ _ _ _ _ _ C1 C2 W G).
      assert (Z : enc b (reset_bounds b u) n 0 0 x).
      { unfold enc, E1, I1, E2, I2. destruct b; try congruence; try (split; lia); lia. }
      unfold qpmad_box. intuition congruence. }
    destruct b; try (apply NQ; discriminate). clear NQ. rewrite Full.
    destruct (B eq_refl) as [B1 _]. destruct hb eqn:Ehb.
    + pose proof (proj1 (bound_in_spec L) Ehb) as HB.
      pose proof (fills_sem Qpmad n L x _ _ _ _ _ _ C1 C2 W G) as X. cbn [enc] in X.
      assert (Z : I2 (reset_bounds Qpmad u) 0 x) by (unfold I2; lia).
      assert (Y : B2 (reset_bounds Qpmad u) n x <-> (forall k, k < n -> (@dbl_min Rnum <= x k <= @dbl_max Rnum)%R)).
      { unfold B2. cbn [reset_bounds]. rewrite B1. cbn [w_bnd q_lb q_ub vget]. reflexivity. }
      unfold qpmad_box. rewrite <- Y. tauto.
    + assert (NB : ~ has_bound L) by (intros HB; apply bound_in_spec in HB; unfold hb in Ehb; congruence).
      cbn [fill] in G. rewrite fills_qpmad_osqp in G by exact NB.
      pose proof (fills_sem Osqp n L x _ _ _ _ _ _ C1 C2 W G) as X. cbn [enc] in X.
      assert (Z : I2 (reset_bounds Qpmad u) 0 x) by (unfold I2; lia).
      unfold qpmad_box. split.
      * intros [HI _]. apply X in HI as [_ HI]. split; [exact HI|]. intros _ HB. contradiction.
      * intros [HH _]. split; [apply X; auto|discriminate].
Qed.

(** The feasible set of the QP of any back-end, whatever was computed before. *)
Theorem prepare_feasible b dbg jk s cl0 r flag s' x : sized b s -> fits b (q_n s') (cl0 :: r) ->
  prepare b dbg jk s (cl0 :: r) flag = Ret s' tt ->
  qp_feasible b s' x <-> hard_ok cl0 x /\ qpmad_box b cl0 (q_n s') x.
Proof.
  intros S F H. cbn [prepare] in H. destruct (2 <? _); [discriminate|].
  destruct (level0 b dbg jk s cl0) as [s1|] eqn:E; [|discriminate].
  assert (X : q_n s' = q_n s1 /\ (qp_feasible b s' x <-> qp_feasible b s1 x)).
  { destruct r as [|cl1 r]; [injection H as <-; split; reflexivity|].
    pose proof (level1_dims b flag s1 cl1) as D. rewrite H in D. destruct D as [_ D]. rewrite D. split; reflexivity. }
  destruct X as [X1 X2]. rewrite X2, X1. apply (level0_sem b dbg jk s cl0 s1 x S); [|exact E].
  rewrite <- X1. destruct b; exact F.
Qed.
