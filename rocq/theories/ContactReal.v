(** What the contact constraints mean over the reals. *)
From Coq Require Import String List Arith Bool QArith Reals Qreals Lia Lra.
From Verif Require Import Scalar Outcome Linalg Constraint FormPhysSpec RSum Contacts ContactSpec ContactProofs.
Import ListNotations.
Open Scope string_scope.
Open Scope list_scope.
Open Scope nat_scope.

Notation rsq := (sqrt : Rnum -> Rnum).
Notation rcont := (cont Rnum).
Ltac rring := match goal with |- ?a = ?b => change (@eq R a b) end; ring.

Lemma sat_ceq (a b : constr Rnum) f : c_kind b = CIneq -> vlen (c_lb b) = mrows (c_mat b) -> vlen (c_ub b) = mrows (c_mat b) ->
  ceq a b -> (sat a f <-> sat b f).
Proof.
  intros Hk Hl Hu (_ & C & (M1 & M2 & M3) & _ & (L1 & L2) & (U1 & U2)).
  unfold sat, lhs. rewrite C, Hk, L1, M2.
  assert (G : forall i, i < vlen (c_lb b) ->
    rsum (mcols (c_mat b)) (fun j => mget (c_mat a) i j * f j)%R = rsum (mcols (c_mat b)) (fun j => mget (c_mat b) i j * f j)%R).
  { intros i Hi. apply rsum_ext. intros j Hj. rewrite M3 by lia. reflexivity. }
  split; intros H i Hi; specialize (H i Hi).
  - rewrite G in H by exact Hi. rewrite L2, U2 in H by lia. exact H.
  - rewrite G by exact Hi. rewrite L2, U2 by lia. exact H.
Qed.

(** * Rows of the friction matrix *)
Lemma row_point k (n : vec Rnum) (mu : R) f i j : k <> K2 -> i < npts k -> j < 4 ->
  rsum (nforce k) (fun c => mget (friction_matrix rsq (npts k) n mu) (4 * i + j) c * f c)%R
  = dot (vget (frow rsq n mu j)) (at_point f i).
Proof.
  intros Hk Hi Hj. destruct k; [| |congruence]; cbn [nforce npts] in *; unfold nforce; cbn [npts Nat.mul Nat.add] in *.
  - rewrite !rsum_S, rsum_0. rewrite !entry4 by lia. unfold dot, at_point.
    do 4 (destruct i as [|i]; [do 4 (destruct j as [|j]; [cbn [Nat.mul Nat.add Nat.eqb Nat.div Nat.modulo Nat.divmod fst snd Nat.sub];
      change (@n0 Rnum) with 0%R; rring|]); lia|]). lia.
  - rewrite !rsum_S, rsum_0. rewrite !entry1 by lia. unfold dot, at_point.
    destruct i as [|i]; [do 4 (destruct j as [|j]; [cbn [Nat.mul Nat.add Nat.eqb Nat.div Nat.modulo Nat.divmod fst snd Nat.sub];
      change (@n0 Rnum) with 0%R; rring|]); lia|]. lia.
Qed.
Lemma row_total k (n : vec Rnum) (mu : R) f : k <> K2 ->
  rsum (nforce k) (fun c => mget (friction_matrix rsq (npts k) n mu) (4 * npts k) c * f c)%R
  = total_normal (npts k) (vget n) f.
Proof.
  intros Hk. unfold total_normal, dot, at_point.
  destruct k; [| |congruence]; unfold nforce; cbn [npts Nat.mul Nat.add] in *.
  - rewrite !rsum_S, !rsum_0. rewrite !entry4 by lia. cbn [Nat.mul Nat.add Nat.eqb Nat.div Nat.modulo Nat.divmod fst snd Nat.sub]. rring.
  - rewrite !rsum_S, !rsum_0. rewrite !entry1 by lia. cbn [Nat.mul Nat.add Nat.eqb Nat.div Nat.modulo Nat.divmod fst snd Nat.sub]. rring.
Qed.
Lemma ineq_rows k name (n : vec Rnum) (mu a b : R) : k <> K2 ->
  mrows (c_mat (force_ineq rsq k name n mu a b)) = 4 * npts k + 1 /\
  mcols (c_mat (force_ineq rsq k name n mu a b)) = nforce k.
Proof. intros Hk; destruct k; [| |congruence]; split; reflexivity. Qed.

Definition big : R := Q2R 10000000000.
Lemma lb_entry np (a : R) i : i < 4 * np + 1 -> vget (friction_lb np (a : Rnum)) i = if i =? 4 * np then a else (- big)%R.
Proof.
  intros Hi. unfold friction_lb, set_last. cbn [vget vlen]. replace (4 * np + 1 - 1) with (4 * np) by lia.
  destruct (i =? 4 * np); [reflexivity|]. change (Q2R (-10000000000) * 1 = - big)%R.
  unfold big. change (-10000000000)%Q with (- (10000000000))%Q. rewrite Q2R_opp. ring.
Qed.
Lemma ub_entry np (a : R) i : i < 4 * np + 1 -> vget (friction_ub np (a : Rnum)) i = if i =? 4 * np then a else 0%R.
Proof.
  intros Hi. unfold friction_ub, set_last, vzero. cbn [vget vlen]. replace (4 * np + 1 - 1) with (4 * np) by lia.
  reflexivity.
Qed.
(** The constraint, row by row. *)
Lemma ineq_sat k name (n : vec Rnum) (mu a b : R) f : k <> K2 ->
  sat (force_ineq rsq k name n mu a b) f <->
  (forall i j, i < npts k -> j < 4 -> (- big <= dot (vget (frow rsq n mu j)) (at_point f i) <= 0)%R) /\
  (a <= total_normal (npts k) (vget n) f <= b)%R.
Proof.
  intros Hk. unfold sat, lhs.
  assert (E : c_kind (force_ineq rsq k name n mu a b) = CIneq) by (destruct k; reflexivity).
  assert (L : c_lb (force_ineq rsq k name n mu a b) = @friction_lb Rnum (npts k) a) by (destruct k; [| |congruence]; reflexivity).
  assert (U : c_ub (force_ineq rsq k name n mu a b) = @friction_ub Rnum (npts k) b) by (destruct k; [| |congruence]; reflexivity).
  assert (M : c_mat (force_ineq rsq k name n mu a b) = friction_matrix rsq (npts k) n mu) by (destruct k; [| |congruence]; reflexivity).
  destruct (ineq_rows k name n mu a b Hk) as [_ MC].
  rewrite E, L, U, MC, M. change (vlen (friction_lb (npts k) (a : Rnum))) with (4 * npts k + 1).
  split.
  - intros H. split.
    + intros i j Hi Hj. specialize (H (4 * i + j) ltac:(lia)).
      rewrite lb_entry, ub_entry in H by lia.
      replace (4 * i + j =? 4 * npts k) with false in H by (symmetry; apply Nat.eqb_neq; lia).
      rewrite row_point in H by assumption. exact H.
    + specialize (H (4 * npts k) ltac:(lia)). rewrite lb_entry, ub_entry, Nat.eqb_refl in H by lia.
      rewrite row_total in H by assumption. exact H.
  - intros [H1 H2] r Hr. rewrite lb_entry, ub_entry by lia. destruct (r =? 4 * npts k) eqn:Er.
    + apply Nat.eqb_eq in Er as ->. rewrite row_total by assumption. exact H2.
    + apply Nat.eqb_neq in Er.
      assert (D := Nat.div_mod r 4 ltac:(lia)). assert (D' := Nat.mod_upper_bound r 4 ltac:(lia)).
      assert (X := H1 (r / 4) (r mod 4) ltac:(lia) D').
      rewrite D, row_point; [exact X|assumption|lia|exact D'].
Qed.

(** * The tangents *)
Lemma crs_model (a b : vec Rnum) i : vget (cross a b) i = crs (vget a) (vget b) i.
Proof. unfold cross, v3, crs. cbn [vget]. destruct i as [|[|[|i]]]; reflexivity. Qed.
Lemma dot3_dot (a b : vec Rnum) : dot3 a b = dot (vget a) (vget b).
Proof. reflexivity. Qed.
Lemma dot_ext a b c d : (forall i, i < 3 -> a i = c i) -> (forall i, i < 3 -> b i = d i) -> dot a b = dot c d.
Proof. intros H1 H2. unfold dot. rewrite !H1, !H2 by lia. reflexivity. Qed.

(** No tangent vanishes unless the normal is tiny. *)
Lemma tangent1_facts (n : vec Rnum) :
  (/ 10 ^ 10 <= dot (vget n) (vget n))%R ->
  dot (vget n) (vget (tangent1 rsq n)) = 0%R /\ (0 < dot (vget (tangent1 rsq n)) (vget (tangent1 rsq n)))%R.
Proof.
  intros Hn. unfold tangent1. set (x := vget n 0). set (y := vget n 1). set (z := vget n 2).
  assert (Ex : vget (cross n (@unit_x Rnum)) = fun i => match i with 0 => 0%R | 1 => z | _ => (- y)%R end).
  { unfold cross, unit_x, v3. cbn [vget]. fold x y z. apply FunctionalExtensionality.functional_extensionality.
    intros [|[|[|i]]]; cbn [Rnum car n0 n1 nsub nmul]; rring. }
  assert (Ey : vget (cross n (@unit_y Rnum)) = fun i => match i with 0 => (- z)%R | 1 => 0%R | _ => x end).
  { unfold cross, unit_y, v3. cbn [vget]. fold x y z. apply FunctionalExtensionality.functional_extensionality.
    intros [|[|[|i]]]; cbn [Rnum car n0 n1 nsub nmul]; rring. }
  assert (Hn' : (/ 10 ^ 10 <= x * x + y * y + z * z)%R) by exact Hn. clear Hn.
  destruct (norm3 rsq (cross n unit_x) <? nofQ (1 # 100000))%num eqn:E.
  - rewrite Ey. split; [unfold dot; fold x y z; ring|]. unfold dot.
    apply Rltb_true in E. unfold norm3 in E. rewrite dot3_dot, Ex in E. unfold dot in E.
    change (nofQ (1 # 100000)) with (Q2R (1 # 100000)) in E.
    assert (S : (z * z + y * y < / 10 ^ 10)%R).
    { assert (P : (0 <= 0 * 0 + z * z + - y * - y)%R) by nra.
      pose proof (sqrt_pos (0 * 0 + z * z + - y * - y)) as S0. pose proof (sqrt_sqrt _ P) as S1.
      assert (Q : Q2R (1 # 100000) = (/ 100000)%R) by (unfold Q2R; simpl; lra).
      rewrite Q in E. set (w := sqrt _) in *.
      assert (w * w < / 100000 * / 100000)%R by nra. lra. }
    nra.
  - rewrite Ex. split; [unfold dot; fold x y z; ring|]. unfold dot.
    apply Rltb_false in E. unfold norm3 in E. rewrite dot3_dot, Ex in E. unfold dot in E.
    change (nofQ (1 # 100000)) with (Q2R (1 # 100000)) in E.
    assert (Q : Q2R (1 # 100000) = (/ 100000)%R) by (unfold Q2R; simpl; lra). rewrite Q in E.
    destruct (Rle_lt_dec (0 * 0 + z * z + - y * - y) 0) as [H|H]; [|exact H].
    rewrite (sqrt_neg_0 _ H) in E. lra.
Qed.
Lemma normalize_dot (a : vec Rnum) b : (0 < dot (vget a) (vget a))%R ->
  dot (vget (normalize3 rsq a)) b = (dot (vget a) b / sqrt (dot (vget a) (vget a)))%R.
Proof.
  intros H. unfold normalize3. rewrite dot3_dot.
  replace (@nltb Rnum n0 (dot (vget a) (vget a))) with true by (symmetry; apply Rltb_true; exact H).
  set (w := sqrt _). unfold dot. cbn [vget].
  change (vget a 0 / w * b 0%nat + vget a 1 / w * b 1%nat + vget a 2 / w * b 2%nat
          = (vget a 0 * b 0%nat + vget a 1 * b 1%nat + vget a 2 * b 2%nat) / w)%R.
  unfold Rdiv. ring.
Qed.
Lemma dot_comm a b : dot a b = dot b a.
Proof. unfold dot. ring. Qed.
Lemma normalize_unit (a : vec Rnum) : (0 < dot (vget a) (vget a))%R ->
  dot (vget (normalize3 rsq a)) (vget (normalize3 rsq a)) = 1%R.
Proof.
  intros H. rewrite normalize_dot, dot_comm, normalize_dot by exact H.
  assert (S := sqrt_lt_R0 _ H). pose proof (sqrt_sqrt (dot (vget a) (vget a)) ltac:(lra)) as S2.
  set (w := sqrt _) in *. rewrite <- S2. field. lra.
Qed.
Lemma cross_dots n t : dot n (crs n t) = 0%R /\ dot t (crs n t) = 0%R /\
  dot (crs n t) (crs n t) = (dot n n * dot t t - dot n t * dot n t)%R.
Proof. unfold dot, crs. repeat split; ring. Qed.
Theorem tangents_frame (n : vec Rnum) : (/ 10 ^ 10 <= dot (vget n) (vget n))%R ->
  frame (vget n) (vget (t_one rsq n)) (vget (t_two rsq n)).
Proof.
  intros Hn. destruct (tangent1_facts n Hn) as [T1 T2]. unfold t_one, t_two. set (t := tangent1 rsq n) in *.
  destruct (cross_dots (vget n) (vget t)) as (C1 & C2 & C3). rewrite T1 in C3.
  assert (E : forall b, dot b (vget (cross n t)) = dot b (crs (vget n) (vget t))).
  { intros b. apply dot_ext; [reflexivity|]. intros; apply crs_model. }
  assert (E2 : dot (vget (cross n t)) (vget (cross n t)) = (dot (vget n) (vget n) * dot (vget t) (vget t))%R).
  { rewrite E, dot_comm, E. lra. }
  assert (P : (0 < dot (vget (cross n t)) (vget (cross n t)))%R).
  { rewrite E2. apply Rmult_lt_0_compat; [|exact T2]. lra. }
  repeat split.
  - apply normalize_unit; exact T2.
  - apply normalize_unit; exact P.
  - rewrite normalize_dot, dot_comm, normalize_dot by assumption. rewrite (dot_comm (vget (cross n t))), E, C2. unfold Rdiv; ring.
  - rewrite dot_comm, normalize_dot, dot_comm, T1 by assumption. unfold Rdiv; ring.
  - rewrite dot_comm, normalize_dot, dot_comm, E, C1 by assumption. unfold Rdiv; ring.
Qed.

Lemma frow_dot (n : vec Rnum) (mu : R) g j : j < 4 ->
  dot (vget (frow rsq n mu j)) g =
  match j with
  | 0 => (- dot (vget (t_one rsq n)) g - mu * dot (vget n) g)%R
  | 1 => (dot (vget (t_one rsq n)) g - mu * dot (vget n) g)%R
  | 2 => (- dot (vget (t_two rsq n)) g - mu * dot (vget n) g)%R
  | _ => (dot (vget (t_two rsq n)) g - mu * dot (vget n) g)%R
  end.
Proof.
  intros Hj. unfold frow, dot, sub3, scal3, vopp.
  destruct j as [|[|[|[|j]]]]; [| | | |lia]; cbn [vget]; cbv [Rnum nsub nmul nopp]; rring.
Qed.
Lemma Rabs_le_iff a b : (Rabs a <= b <-> - a - b <= 0 /\ a - b <= 0)%R.
Proof. split; [intros H; pose proof (Rle_abs a); pose proof (Rle_abs (- a)); rewrite Rabs_Ropp in *; lra|]. intros [H1 H2]. apply Rabs_le. lra. Qed.

(** The constraint is the friction pyramid and the bounds on the normal force. *)
Theorem ineq_meaning k name (n : vec Rnum) (mu a b : R) f : k <> K2 ->
  sat (force_ineq rsq k name n mu a b) f ->
  friction_ok (npts k) (vget n) (vget (t_one rsq n)) (vget (t_two rsq n)) mu a b f.
Proof.
  intros Hk H. apply ineq_sat in H as [H1 H2]; [|exact Hk]. split; [|exact H2].
  intros i Hi. pose proof (H1 i 0 Hi ltac:(lia)) as Q0. pose proof (H1 i 1 Hi ltac:(lia)) as Q1.
  pose proof (H1 i 2 Hi ltac:(lia)) as Q2. pose proof (H1 i 3 Hi ltac:(lia)) as Q3.
  rewrite frow_dot in Q0, Q1, Q2, Q3 by lia. split; apply Rabs_le_iff; lra.
Qed.
Lemma pyramid_normal n t1 t2 mu g : (0 < mu)%R -> pyramid n t1 t2 mu g -> (0 <= dot n g)%R.
Proof.
  intros Hm [H _]. pose proof (Rabs_pos (dot t1 g)). destruct (Rle_lt_dec 0 (dot n g)) as [X|X]; [exact X|]. nra.
Qed.
Lemma rsum_le_one N (x : nat -> R) i : (forall j, j < N -> (0 <= x j)%R) -> i < N -> (x i <= rsum N x)%R.
Proof.
  induction N as [|N IH]; intros H Hi; [lia|]. rewrite rsum_S. assert (0 <= x N)%R by (apply H; lia).
  destruct (Nat.eq_dec i N) as [->|Hn].
  - assert (0 <= rsum N x)%R by (apply rsum_nonneg; auto). lra.
  - assert (x i <= rsum N x)%R by (apply IH; auto; lia). lra.
Qed.
Theorem ineq_complete k name (n : vec Rnum) (mu a b : R) f : k <> K2 -> (0 < mu)%R -> (2 * mu * b <= big)%R ->
  friction_ok (npts k) (vget n) (vget (t_one rsq n)) (vget (t_two rsq n)) mu a b f ->
  sat (force_ineq rsq k name n mu a b) f.
Proof.
  intros Hk Hm Hb [H1 H2]. apply ineq_sat; [exact Hk|]. split; [|exact H2]. intros i j Hi Hj.
  assert (P : forall i, i < npts k -> (0 <= dot (vget n) (at_point f i))%R).
  { intros q Hq. eapply pyramid_normal; [exact Hm|]. exact (H1 q Hq). }
  assert (Q : (dot (vget n) (at_point f i) <= b)%R).
  { eapply Rle_trans; [|exact (proj2 H2)]. unfold total_normal.
    exact (rsum_le_one (npts k) (fun i => dot (vget n) (at_point f i)) i P Hi). }
  destruct (H1 i Hi) as [A1 A2]. apply Rabs_le_iff in A1. apply Rabs_le_iff in A2. specialize (P i Hi).
  assert (B1 : (- (mu * dot (vget n) (at_point f i)) <= dot (vget (t_one rsq n)) (at_point f i) <= mu * dot (vget n) (at_point f i))%R) by lra.
  assert (B2 : (- (mu * dot (vget n) (at_point f i)) <= dot (vget (t_two rsq n)) (at_point f i) <= mu * dot (vget n) (at_point f i))%R) by lra.
  assert (B3 : (mu * dot (vget n) (at_point f i) <= mu * b)%R) by (apply Rmult_le_compat_l; lra).
  rewrite frow_dot by exact Hj. destruct j as [|[|[|[|j]]]]; [| | | |lia]; lra.
Qed.

(** * Reachable contacts *)
Lemma current_sat k (s : rcont) f : k <> K2 -> current rsq k s ->
  (sat (k_ineq s) f <-> sat (force_ineq rsq k (c_name (k_ineq s)) (k_n s) (k_mu s) (k_fmin s) (k_fmax s)) f).
Proof.
  intros Hk C. apply sat_ceq; [| | |exact C]; destruct k; try congruence; reflexivity.
Qed.
Theorem contact_meaning k dbg name (s : rcont) : k <> K2 -> made rsq k dbg name s ->
  (/ 10 ^ 10 <= dot (vget (k_n s)) (vget (k_n s)))%R ->
  exists t1 t2, frame (vget (k_n s)) t1 t2 /\ forall f,
    (sat (k_ineq s) f -> friction_ok (npts k) (vget (k_n s)) t1 t2 (k_mu s) (k_fmin s) (k_fmax s) f) /\
    ((0 < k_mu s)%R -> (2 * k_mu s * k_fmax s <= big)%R ->
     friction_ok (npts k) (vget (k_n s)) t1 t2 (k_mu s) (k_fmin s) (k_fmax s) f -> sat (k_ineq s) f).
Proof.
  intros Hk Hm Hn. apply made_current in Hm as [C _].
  exists (vget (t_one rsq (k_n s))), (vget (t_two rsq (k_n s))). split; [apply tangents_frame; exact Hn|].
  intros f. rewrite (current_sat k s f Hk C). split; [apply ineq_meaning; exact Hk|].
  intros; apply ineq_complete; assumption.
Qed.
(** Two-frame contacts: each force component lies between the bounds. *)
Theorem two_frame_box dbg name (s : rcont) : made rsq K2 dbg name s -> forall f,
  sat (k_ineq s) f <-> forall j, j < 3 -> (k_fmin s <= f j <= k_fmax s)%R.
Proof.
  intros Hm f. apply made_current in Hm as [C _].
  rewrite (sat_ceq (k_ineq s) _ f (eq_refl : c_kind (force_ineq rsq K2 _ _ _ _ _) = CIneq) eq_refl eq_refl C).
  unfold sat, lhs. cbn [force_ineq c_kind c_mat c_lb c_ub vlen vget mcols mident mget].
  assert (E : forall i, i < 3 -> rsum 3 (fun j => mget (@mident Rnum 3 3) i j * f j)%R = f i).
  { intros i Hi. rewrite !rsum_S, rsum_0.
    destruct i as [|[|[|i]]]; [| | |lia]; unfold mident; cbn [mget Nat.eqb]; cbv [Rnum n0 n1]; rring. }
  assert (E1 : forall a : R, (@nmul Rnum a n1 = a)%R) by (intros a; exact (Rmult_1_r a)).
  split; intros H j Hj; specialize (H j Hj); rewrite ?E1 in *.
  - rewrite <- (E j Hj). exact H.
  - rewrite <- (E j Hj) in H. exact H.
Qed.

(** getNormalForce is the total normal force. *)
Theorem normal_force_meaning k (s : rcont) (f : vec Rnum) : k <> K2 -> vlen f = nforce k ->
  normal_force k s f = Ret s (total_normal (npts k) (vget (k_n s)) (vget f)).
Proof.
  intros Hk Hf. unfold normal_force. rewrite Hf, Nat.eqb_refl. destruct k; [| |congruence]; reflexivity.
Qed.
