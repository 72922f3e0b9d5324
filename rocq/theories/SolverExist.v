(** A regularised QP with a feasible point has a minimiser. *)
From Coq Require Import List Arith Bool Reals QArith Qreals Lia Lra.
From Coquelicot Require Import Hierarchy.
From Verif Require Import Scalar Outcome Linalg Constraint FormPhysSpec RSum Solvers SolverSpec SolverSizes SolverHist SolverSem SolverCost SolverMain.
Import ListNotations.
Open Scope nat_scope.
#[local] Opaque nsum.

Section Topology.
Variable n : nat.
Definition near (d : R) (x l : nat -> R) : Prop := forall i, i < n -> (Rabs (x i - l i) < d)%R.
Definition cont (g : (nat -> R) -> R) : Prop :=
  forall l eps, (0 < eps)%R -> exists d, (0 < d)%R /\ forall x, near d x l -> (Rabs (g x - g l) < eps)%R.
Definition closedp (P : (nat -> R) -> Prop) : Prop :=
  forall l, (forall d, (0 < d)%R -> exists x, P x /\ near d x l) -> P l.

Lemma near_le d d' x l : (d <= d')%R -> near d x l -> near d' x l.
Proof. intros H N i Hi. specialize (N i Hi). lra. Qed.
Lemma cont_const k : cont (fun _ => k).
Proof. intros l e He. exists 1%R. split; [lra|]. intros x _. rewrite Rminus_diag_eq by reflexivity. rewrite Rabs_R0. exact He. Qed.
Lemma cont_coord i : i < n -> cont (fun x => x i).
Proof. intros Hi l e He. exists e. split; [exact He|]. intros x N. apply N. exact Hi. Qed.
Lemma cont_plus g h : cont g -> cont h -> cont (fun x => g x + h x)%R.
Proof.
  intros G H l e He. destruct (G l (e / 2)%R) as (d1 & D1 & G1); [lra|]. destruct (H l (e / 2)%R) as (d2 & D2 & H2); [lra|].
  exists (Rmin d1 d2). split; [apply Rmin_glb_lt; assumption|]. intros x N.
  specialize (G1 x (near_le _ _ _ _ (Rmin_l _ _) N)). specialize (H2 x (near_le _ _ _ _ (Rmin_r _ _) N)).
  replace (g x + h x - (g l + h l))%R with ((g x - g l) + (h x - h l))%R by ring.
  eapply Rle_lt_trans; [apply Rabs_triang|]. lra.
Qed.
Lemma cont_mult g h : cont g -> cont h -> cont (fun x => g x * h x)%R.
Proof.
  intros G H l e He. set (a := Rabs (g l)). set (b := Rabs (h l)).
  assert (Ha : (0 <= a)%R) by apply Rabs_pos. assert (Hb : (0 <= b)%R) by apply Rabs_pos.
  set (m := Rmin 1 (e / (2 * (a + b + 1)))%R).
  assert (Hm : (0 < m)%R). { apply Rmin_glb_lt; [lra|]. apply Rdiv_lt_0_compat; lra. }
  assert (M1 : (m <= 1)%R) by apply Rmin_l.
  assert (M2 : (m * (a + b + 1) <= e / 2)%R).
  { assert (M : (m <= e / (2 * (a + b + 1)))%R) by apply Rmin_r.
    apply Rmult_le_compat_r with (r := (a + b + 1)%R) in M; [|lra].
    replace (e / (2 * (a + b + 1)) * (a + b + 1))%R with (e / 2)%R in M by (field; lra). exact M. }
  destruct (G l m Hm) as (d1 & D1 & G1). destruct (H l m Hm) as (d2 & D2 & H2).
  exists (Rmin d1 d2). split; [apply Rmin_glb_lt; assumption|]. intros x N.
  specialize (G1 x (near_le _ _ _ _ (Rmin_l _ _) N)). specialize (H2 x (near_le _ _ _ _ (Rmin_r _ _) N)).
  replace (g x * h x - g l * h l)%R with ((g x - g l) * (h x - h l) + (g x - g l) * h l + g l * (h x - h l))%R by ring.
  eapply Rle_lt_trans; [apply Rabs_triang|]. 
  assert (T := Rabs_triang ((g x - g l) * (h x - h l)) ((g x - g l) * h l)). rewrite !Rabs_mult in T. rewrite Rabs_mult. fold a b in T. fold a.
  set (u := Rabs (g x - g l)) in *. set (v := Rabs (h x - h l)) in *.
  assert (Hu : (0 <= u)%R) by apply Rabs_pos. assert (Hv : (0 <= v)%R) by apply Rabs_pos.
  assert (u * v <= m * 1)%R by (apply Rmult_le_compat; lra).
  assert (u * b <= m * b)%R by (apply Rmult_le_compat_r; lra).
  assert (a * v <= a * m)%R by (apply Rmult_le_compat_l; lra). nra.
Qed.
Lemma cont_sum m (f : nat -> (nat -> R) -> R) : (forall i, i < m -> cont (f i)) -> cont (fun x => @nsum Rnum m (fun i => f i x)).
Proof.
  induction m as [|m IH]; intros H.
  - intros l e He. exists 1%R. split; [lra|]. intros x _. rewrite !rsum_0. rewrite Rminus_diag_eq by reflexivity. rewrite Rabs_R0. exact He.
  - assert (C := cont_plus _ _ (IH (fun i Hi => H i (Nat.lt_lt_succ_r _ _ Hi))) (H m (Nat.lt_succ_diag_r m))).
    intros l e He. destruct (C l e He) as (d & D & X). exists d. split; [exact D|]. intros x N. rewrite !rsum_S. exact (X x N).
Qed.
Lemma cont_qrow (M : mat Rnum) k : mcols M <= n -> cont (fun x => qrow M x k).
Proof.
  intros H. unfold qrow. apply (cont_sum (mcols M) (fun j x => (mget M k j * x j)%R)). intros i Hi.
  apply cont_mult; [apply cont_const|apply cont_coord; lia].
Qed.
Lemma closed_le g h : cont g -> cont h -> closedp (fun x => (g x <= h x)%R).
Proof.
  intros G H l A. apply Rnot_lt_le. intros C. set (e := ((g l - h l) / 2)%R). assert (He : (0 < e)%R) by (unfold e; lra).
  destruct (G l e He) as (d1 & D1 & G1). destruct (H l e He) as (d2 & D2 & H2).
  destruct (A (Rmin d1 d2)) as (x & Px & N); [apply Rmin_glb_lt; assumption|].
  specialize (G1 x (near_le _ _ _ _ (Rmin_l _ _) N)). specialize (H2 x (near_le _ _ _ _ (Rmin_r _ _) N)).
  apply Rabs_def2 in G1. apply Rabs_def2 in H2. unfold e in *. lra.
Qed.
Lemma closed_and P Q : closedp P -> closedp Q -> closedp (fun x => P x /\ Q x).
Proof.
  intros A B l H. split; [apply A|apply B]; intros d D; destruct (H d D) as (x & [Px Qx] & N); exists x; auto.
Qed.
Lemma closed_all {A} (P : A -> (nat -> R) -> Prop) : (forall a, closedp (P a)) -> closedp (fun x => forall a, P a x).
Proof. intros H l C a. apply H. intros d D. destruct (C d D) as (x & Px & N). exists x. auto. Qed.
Lemma closed_imp (A : Prop) P : (A -> closedp P) -> closedp (fun x => A -> P x).
Proof. intros H l C a. apply (H a). intros d D. destruct (C d D) as (x & Px & N). exists x. auto. Qed.
Lemma closed_eq g h : cont g -> cont h -> closedp (fun x => g x = h x).
Proof.
  intros G H l A. apply Rle_antisym; [apply (closed_le g h G H)|apply (closed_le h g H G)];
    intros d D; destruct (A d D) as (x & Px & N); exists x; (split; [lra|exact N]).
Qed.
Lemma closed_ext P Q : (forall x, P x <-> Q x) -> closedp P -> closedp Q.
Proof. intros E C l H. apply E, C. intros d D. destruct (H d D) as (x & Qx & N). exists x. split; [apply E; exact Qx|exact N]. Qed.

(** Minimising sequences of a strongly mid-point convex function converge. *)
Variables (f : (nat -> R) -> R) (F : (nat -> R) -> Prop) (r lo : R).
Hypothesis Hr : (0 < r)%R.
Hypothesis Hlo : forall x, F x -> (lo <= f x)%R.
Hypothesis Hmid : forall x y, F x -> F y -> F (mid x y).
Hypothesis Hconv : forall x y, (f (mid x y) <= (f x + f y) / 2 - r * sqnorm n (fun i => x i - y i))%R.
Hypothesis Hne : exists x, F x.
Hypothesis HF : closedp F.
Hypothesis Hf : cont f.

Lemma infimum : exists d, (forall x, F x -> (d <= f x)%R) /\ forall e, (0 < e)%R -> exists x, F x /\ (f x < d + e)%R.
Proof.
  destruct (completeness (fun t => exists x, F x /\ t = (- f x)%R)) as (m & U & L).
  - exists (- lo)%R. intros t (x & Fx & ->). specialize (Hlo x Fx). lra.
  - destruct Hne as (x & Fx). exists (- f x)%R, x. auto.
  - exists (- m)%R. split.
    + intros x Fx. assert (- f x <= m)%R by (apply U; exists x; auto). lra.
    + intros e He. destruct (Rlt_le_dec (m - e) m) as [_|C]; [|lra].
      destruct (Classical_Prop.classic (exists x, F x /\ (f x < - m + e)%R)) as [A|A]; [exact A|exfalso].
      assert (B : (m <= m - e)%R); [|lra]. apply L. intros t (x & Fx & ->).
      apply Rnot_lt_le. intros C. apply A. exists x. split; [exact Fx|lra].
Qed.
Section Inf.
Variable d : R.
Hypothesis Hd : forall x, F x -> (d <= f x)%R.
Hypothesis Hde : forall e, (0 < e)%R -> exists x, F x /\ (f x < d + e)%R.
Definition tail (i : nat) (P : R -> Prop) : Prop :=
  exists e, (0 < e)%R /\ forall x, F x -> (f x < d + e)%R -> P (x i).
Lemma tail_proper i : ProperFilter (tail i).
Proof.
  split.
  - intros P (e & He & H). destruct (Hde e He) as (x & Fx & L). exists (x i). auto.
  - split.
    + exists 1%R. split; [lra|auto].
    + intros P Q (e1 & He1 & H1) (e2 & He2 & H2). exists (Rmin e1 e2). split; [apply Rmin_glb_lt; assumption|].
      intros x Fx L. assert (Rmin e1 e2 <= e1)%R by apply Rmin_l. assert (Rmin e1 e2 <= e2)%R by apply Rmin_r.
      split; [apply H1|apply H2]; auto; lra.
    + intros P Q PQ (e & He & H). exists e. split; [exact He|]. intros x Fx L. apply PQ, H; assumption.
Qed.
Lemma sq_le (z : nat -> R) i : i < n -> (z i * z i <= sqnorm n z)%R.
Proof.
  intros Hi. unfold sqnorm. clear -Hi. induction n as [|m IH]; [lia|]. rewrite rsum_S.
  destruct (Nat.eq_dec i m) as [->|Hne].
  - assert (0 <= @nsum Rnum m (fun i => z i * z i))%R by (apply rsum_nonneg; intros; apply Rle_0_sqr). lra.
  - assert (X := IH ltac:(lia)). assert (0 <= z m * z m)%R by apply Rle_0_sqr. lra.
Qed.
Lemma tail_cauchy i : i < n -> forall e : posreal, exists c : R, tail i (ball c e).
Proof.
  intros Hi e. set (h := (r * (e * e))%R). assert (He := cond_pos e).
  assert (Hh : (0 < h)%R) by (unfold h; apply Rmult_lt_0_compat; [exact Hr|apply Rmult_lt_0_compat; exact He]).
  destruct (Hde h Hh) as (x0 & F0 & L0). exists (x0 i), h. split; [exact Hh|]. intros x Fx L.
  change (Rabs (x i - x0 i) < e)%R.
  assert (C := Hconv x x0). assert (D := Hd _ (Hmid x x0 Fx F0)).
  assert (S := sq_le (fun i => x i - x0 i)%R i Hi). cbn beta in S.
  assert (B : (r * ((x i - x0 i) * (x i - x0 i)) < r * (e * e))%R).
  { fold h. apply Rle_lt_trans with (r * sqnorm n (fun i => x i - x0 i))%R; [apply Rmult_le_compat_l; lra|]. lra. }
  apply Rmult_lt_reg_l in B; [|exact Hr]. apply Rsqr_lt_abs_0 in B. rewrite (Rabs_pos_eq e) in B by lra. exact B.
Qed.
Definition point (i : nat) : R := R_complete_lim (tail i).
Lemma point_tail i : i < n -> forall e, (0 < e)%R -> exists a, (0 < a)%R /\ forall x, F x -> (f x < d + a)%R -> (Rabs (x i - point i) < e)%R.
Proof.
  intros Hi e He. destruct (R_complete (tail i) (tail_proper i) (tail_cauchy i Hi) (mkposreal e He)) as (a & Ha & H).
  exists a. split; [exact Ha|]. intros x Fx L. exact (H x Fx L).
Qed.
Lemma point_near e : (0 < e)%R -> exists a, (0 < a)%R /\ forall x, F x -> (f x < d + a)%R -> near e x point.
Proof.
  intros He. assert (G : forall m, m <= n -> exists a, (0 < a)%R /\ forall x, F x -> (f x < d + a)%R -> forall i, i < m -> (Rabs (x i - point i) < e)%R).
  { induction m as [|m IH]; intros Hm; [exists 1%R; split; [lra|intros; lia]|].
    destruct IH as (a1 & A1 & H1); [lia|]. destruct (point_tail m Hm e He) as (a2 & A2 & H2).
    exists (Rmin a1 a2). split; [apply Rmin_glb_lt; assumption|]. intros x Fx L i Hi.
    assert (Rmin a1 a2 <= a1)%R by apply Rmin_l. assert (Rmin a1 a2 <= a2)%R by apply Rmin_r.
    destruct (Nat.eq_dec i m) as [->|]; [apply H2|apply H1]; auto; try lra; lia. }
  apply (G n). lia.
Qed.
Lemma point_min : F point /\ forall z, F z -> (f point <= f z)%R.
Proof.
  split.
  - apply HF. intros e He. destruct (point_near e He) as (a & Ha & H). destruct (Hde a Ha) as (x & Fx & L). exists x. auto.
  - intros z Fz. apply Rle_trans with d; [|apply Hd; exact Fz]. apply Rnot_lt_le. intros C.
    set (g := ((f point - d) / 2)%R). assert (Hg : (0 < g)%R) by (unfold g; lra).
    destruct (Hf point g Hg) as (e & He & K). destruct (point_near e He) as (a & Ha & H).
    destruct (Hde (Rmin a g)) as (x & Fx & L); [apply Rmin_glb_lt; assumption|].
    assert (Rmin a g <= a)%R by apply Rmin_l. assert (Rmin a g <= g)%R by apply Rmin_r.
    assert (N := K x (H x Fx ltac:(lra))). apply Rabs_def2 in N. unfold g in *. lra.
Qed.
End Inf.
Theorem min_exists : exists x, F x /\ forall z, F z -> (f x <= f z)%R.
Proof. destruct infimum as (d & H1 & H2). exists (point d). apply point_min; assumption. Qed.
End Topology.

Lemma closed_feasible b (s : sst Rnum) : sized b s -> closedp (q_n s) (qp_feasible b s).
Proof.
  intros S. destruct S as (_ & _ & _ & CI & S & _).
  assert (Q : forall M k, mcols M = q_n s -> cont (q_n s) (fun x => qrow M x k)) by (intros M k H; apply cont_qrow; lia).
  assert (T : closedp (q_n s) (two_sided (q_CI s) (q_cil s) (q_ciu s))).
  { unfold two_sided. apply closed_all. intros k. apply closed_imp. intros _. apply closed_and; apply closed_le; auto using cont_const. }
  unfold qp_feasible. destruct b.
  1-3: destruct S as (CE & _);
    apply closed_and; apply closed_all; intros k; apply closed_imp; intros _;
    [apply closed_eq|apply closed_le]; auto using cont_const, cont_plus.
  - destruct S as (CE & _). apply closed_and; [|exact T]. apply closed_all. intros k. apply closed_imp. intros _.
    apply closed_eq; auto using cont_const.
  - exact T.
  - apply closed_and; [exact T|]. apply closed_imp. intros _. apply closed_all. intros k. apply closed_imp. intros Hk.
    apply closed_and; apply closed_le; auto using cont_const, cont_coord.
Qed.
Lemma cont_cost b (s : sst Rnum) : sized b s -> cont (q_n s) (qp_cost s).
Proof.
  intros (H1 & H2 & H3 & _). unfold qp_cost. apply cont_plus.
  - apply cont_mult; [apply cont_const|]. rewrite H1.
    apply (cont_sum (q_n s) (q_n s) (fun i x => x i * qrow (q_H s) x i)%R). intros i Hi. apply cont_mult; [apply cont_coord; exact Hi|apply cont_qrow; lia].
  - rewrite H3. apply (cont_sum (q_n s) (q_n s) (fun i x => vget (q_g s) i * x i)%R). intros i Hi.
    apply cont_mult; [apply cont_const|apply cont_coord; exact Hi].
Qed.

(** C23: existence *)
Theorem solve_exists b dbg jk s cl0 cl1 ans x0 s' res : regularised b -> solver_state b dbg s ->
  fits b (q_n s') [cl0; cl1] ->
  solve b dbg jk s [cl0; cl1] ans x0 = Ret s' res -> (forall w c, In (w, c) cl1 -> (0 <= w)%R) ->
  (exists z, qp_feasible b s' z) ->
  exists x, qp_feasible b s' x /\ forall z, qp_feasible b s' z -> (qp_cost s' x <= qp_cost s' z)%R.
Proof.
  intros [B1 B2] S F H W Hne. pose proof (solve_feasible _ _ _ _ _ _ _ _ _ _ S F H) as G.
  destruct (solve_convex _ _ _ _ _ _ _ _ _ _ S H W) as [_ Q].
  destruct (solve_cost _ _ _ _ _ _ _ _ _ _ S H) as [k C].
  assert (R0 : (0 < solve_reg b)%R) by (destruct b; cbn; try congruence; lra).
  assert (Z : sized b s').
  { apply (state_sized b dbg). destruct S as (j & hb & st & S). exists j, hb, st.
    eapply (reach_step _ _ _ s (SSolve b [cl0; cl1] jk ans x0)); [exact S|exact I|]. cbn [sstep]. rewrite H. reflexivity. }
  apply (min_exists (q_n s') (qp_cost s') (qp_feasible b s') (/ 8 * solve_reg b)%R k).
  - lra.
  - intros x _. rewrite C. assert (0 <= least_squares (solve_reg b) (q_n s') cl1 x)%R; [|lra].
    unfold least_squares. assert (A := sqnorm_nonneg (q_n s') x).
    assert (0 <= solve_reg b * sqnorm (q_n s') x)%R by (apply Rmult_le_pos; lra).
    assert (0 <= lsum (fun wc => task_cost wc x) cl1)%R; [|lra].
    clear -W. induction cl1 as [|[w c] l IH]; [unfold lsum; simpl; lra|]. rewrite lsum_cons.
    assert (0 <= w)%R by (apply (W w c); left; reflexivity).
    assert (0 <= task_cost (w, c) x)%R by (unfold task_cost; cbn [fst snd]; apply Rmult_le_pos; [assumption|apply sqnorm_nonneg]).
    assert (X := IH (fun w c Hin => W w c (or_intror Hin))). lra.
  - intros u v Fu Fv. rewrite G in *. destruct Fu, Fv. split; [apply hard_mid|apply box_mid]; assumption.
  - intros x y. rewrite cost_mid. specialize (Q (fun i => x i - y i)%R). 
    change (solve_reg b * sqnorm (q_n s') (fun i => x i - y i) <= quad (q_H s') (fun i => x i - y i))%R in Q.
    assert (E : (/ 8 * solve_reg b * sqnorm (q_n s') (fun i => x i - y i) = / 8 * (solve_reg b * sqnorm (q_n s') (fun i => x i - y i)))%R) by ring.
    rewrite E. lra.
  - exact Hne.
  - apply closed_feasible. exact Z.
  - apply (cont_cost b). exact Z.
Qed.
