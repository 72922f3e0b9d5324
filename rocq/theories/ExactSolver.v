(** There is a function from two-level problems to answers that is an exact solver on all of
    them: it says whether the problem is feasible, and gives the minimiser when it is. *)
From Coq Require Import List Arith Bool Reals Lia Lra Classical ClassicalDedekindReals.
From Coquelicot Require Import Rbar Lub.
From Verif Require Import Scalar Outcome Linalg Constraint FormPhysSpec RSum Solvers SolverSpec SolverSizes SolverHist SolverMain SolverExist SolverRefute.
Import ListNotations.
Open Scope nat_scope.

(** * Specification *)
Definition reg8 : R := (/ 100000000)%R.
(** [y] satisfies level 0 and minimises the weighted squared errors of level 1 plus the
    regularisation (1e-8 per squared unknown, solver-HQP-eiquadprog-fast.cpp). *)
Definition best (n : nat) (cl0 cl1 : level Rnum) (y : nat -> R) : Prop :=
  hard_ok cl0 y /\ forall z, hard_ok cl0 z -> (least_squares reg8 n cl1 y <= least_squares reg8 n cl1 z)%R.
(** The external solver (eiquadprog-fast) computes without rounding on this problem: UNBOUNDED
    is what it reports for constraints that contradict each other. *)
Definition exact_for (n : nat) (P : hqpdata Rnum) (a : fast_code * vec Rnum) : Prop :=
  forall cl0 cl1, P = [cl0; cl1] ->
    ((exists z, hard_ok cl0 z) -> fst a = F_optimal /\ vlen (snd a) = n /\ best n cl0 cl1 (vget (snd a))) /\
    (~ (exists z, hard_ok cl0 z) -> fst a = F_unbounded).
Definition exact_solver (n : nat) (ext : hqpdata Rnum -> fast_code * vec Rnum) : Prop :=
  forall cl0 cl1 : level Rnum, pwf n [cl0; cl1] -> (forall w c, In (w, c) cl1 -> (0 <= w)%R) -> exact_for n [cl0; cl1] (ext [cl0; cl1]).

(** The half of it that concerns problems with a solution; a solver that answers the others with
    EIQUADPROG_FAST_INFEASIBLE and [x]. *)
Definition finds (n : nat) (ext : hqpdata Rnum -> fast_code * vec Rnum) : Prop :=
  forall cl0 cl1 : level Rnum, pwf n [cl0; cl1] -> (forall w c, In (w, c) cl1 -> (0 <= w)%R) -> (exists z, hard_ok cl0 z) ->
    fst (ext [cl0; cl1]) = F_optimal /\ vlen (snd (ext [cl0; cl1])) = n /\ best n cl0 cl1 (vget (snd (ext [cl0; cl1]))).
Definition hides (n : nat) (ext : hqpdata Rnum -> fast_code * vec Rnum) (x : vec Rnum) : Prop :=
  forall cl0 cl1 : level Rnum, pwf n [cl0; cl1] -> (forall w c, In (w, c) cl1 -> (0 <= w)%R) -> ~ (exists z, hard_ok cl0 z) -> ext [cl0; cl1] = (F_infeasible, x).

(** * Proofs *)
Section Exact.
Variables (n : nat) (cl0 cl1 : level Rnum).
Hypotheses (W : pwf n [cl0; cl1]) (Wt : forall w c, In (w, c) cl1 -> (0 <= w)%R).
Let jk : junk Rnum := fun _ _ _ => 0%R.
Let s0 : sst Rnum := solver_new Fast jk false St_unknown.
Lemma fresh_usable : usable Fast false n [cl0; cl1] s0.
Proof. split; [exists jk, false, St_unknown; constructor|]. split; [exact I|discriminate]. Qed.
Lemma fresh_solve : exists s res, solve Fast false jk s0 [cl0; cl1] F_optimal (vzero n) = Ret s res /\ q_n s = n /\
  (forall x, qp_feasible Fast s x <-> hard_ok cl0 x) /\
  (forall x, best n cl0 cl1 x <-> qp_feasible Fast s x /\ forall z, qp_feasible Fast s z -> (qp_cost s x <= qp_cost s z)%R).
Proof.
  destruct (accept Fast false jk s0 n [cl0; cl1] F_optimal (vzero n) fresh_usable W) as (s & res & E). exists s, res. split; [exact E|].
  assert (N := solve_n _ _ _ _ _ _ _ _ _ _ fresh_usable W E). split; [exact N|]. destruct fresh_usable as (U1 & U2 & _).
  assert (F : forall x, qp_feasible Fast s x <-> hard_ok cl0 x).
  { intros x. rewrite (solve_feasible _ _ _ _ _ _ _ _ _ _ U1 I E). split; [intros [H _]; exact H|intros H; split; [exact H|discriminate]]. }
  split; [exact F|]. intros x. unfold best.
  assert (M := solve_minimisers _ _ _ _ _ _ _ _ _ _ U1 E (qp_feasible Fast s) x). change (solve_reg Fast) with reg8 in M. rewrite N in M. rewrite M, F.
  split; intros [A B]; (split; [exact A|]); intros z Hz; apply B; apply F in Hz || apply F; assumption.
Qed.
Lemma best_exists : (exists z, hard_ok cl0 z) -> exists y, best n cl0 cl1 y.
Proof.
  intros [z Hz]. destruct fresh_solve as (s & res & E & N & F & B).
  destruct (solve_exists Fast false jk s0 cl0 cl1 F_optimal (vzero n) s res) as (x & Hx); try assumption.
  - split; discriminate.
  - apply fresh_usable.
  - exact I.
  - exists z. apply F, Hz.
  - exists x. apply B, Hx.
Qed.
Lemma best_unique x y : best n cl0 cl1 x -> best n cl0 cl1 y -> forall i, i < n -> x i = y i.
Proof.
  destruct fresh_solve as (s & res & E & N & F & B). intros Hx Hy i Hi. apply B in Hx as [X1 X2]. apply B in Hy as [Y1 Y2].
  apply (solve_unique Fast false jk s0 cl0 cl1 F_optimal (vzero n) s res); try assumption.
  - split; discriminate.
  - apply fresh_usable.
  - exact I.
  - rewrite N. exact Hi.
Qed.
End Exact.
(** Constraints and cost look at the first [n] numbers only. *)
Lemma sat_ext n (c : constr Rnum) x y : cwf n c -> (forall i, i < n -> x i = y i) -> sat c x -> sat c y.
Proof.
  intros C H S. assert (L : forall i, i < match c_kind c with CEq => vlen (c_vec c) | _ => vlen (c_lb c) end -> lhs c y i = lhs c x i).
  { intros i Hi. unfold cwf in C. unfold lhs. destruct (c_kind c).
    - destruct C as [C _]. apply rsum_ext. intros j Hj. rewrite H by lia. reflexivity.
    - destruct C as [C _]. apply rsum_ext. intros j Hj. rewrite H by lia. reflexivity.
    - destruct C as [C _]. symmetry. apply H. lia. }
  unfold sat in *. destruct (c_kind c); intros i Hi; rewrite (L i Hi); apply S; exact Hi.
Qed.
Lemma cost_ext r n (cl1 : level Rnum) x y : lwf n cl1 -> (forall w c, In (w, c) cl1 -> c_kind c = CEq) -> (forall i, i < n -> x i = y i) ->
  least_squares r n cl1 x = least_squares r n cl1 y.
Proof.
  intros W K H. unfold least_squares. f_equal. f_equal.
  - apply lsum_ext. intros [w c] Hin. unfold task_cost. cbn [fst snd]. f_equal. assert (C := W w c Hin). unfold cwf in C. rewrite (K w c Hin) in C. destruct C as [C _].
    unfold sqnorm. apply rsum_ext. intros k Hk. assert (Q : residual c x k = residual c y k); [|rewrite Q; reflexivity].
    unfold residual, qrow. f_equal. apply rsum_ext. intros j Hj. rewrite H by lia. reflexivity.
  - f_equal. unfold sqnorm. apply rsum_ext. intros i Hi. rewrite H by exact Hi. reflexivity.
Qed.


(** The value of a set with one element. *)
Definition the (E : R -> Prop) : R := real (Lub_Rbar E).
Lemma the_only (E : R -> Prop) r : E r -> (forall r', E r' -> r' = r) -> the E = r.
Proof.
  intros H U. unfold the. rewrite (is_lub_Rbar_unique E r); [reflexivity|]. split.
  - intros x Hx. rewrite (U x Hx). apply Rbar_le_refl.
  - intros b Hb. exact (Hb r H).
Qed.
Definition exact_answer (n : nat) (P : hqpdata Rnum) : fast_code * vec Rnum :=
  match P with
  | [cl0; cl1] =>
    if sig_not_dec (exists z, hard_ok cl0 z) then (F_optimal, @mkVec Rnum n (fun i => the (fun r => exists y, best n cl0 cl1 y /\ r = y i)))
    else (F_unbounded, vzero n)
  | _ => (F_unbounded, vzero n)
  end.
Theorem exact_answer_exact n : exact_solver n (exact_answer n).
Proof.
  intros cl0 cl1 W Wt cl0' cl1' E. injection E as <- <-. cbn [exact_answer]. destruct (sig_not_dec (exists z, hard_ok cl0 z)) as [D|D].
  - apply NNPP in D. split; [|contradiction]. intros _. cbn [fst snd vlen]. split; [reflexivity|]. split; [reflexivity|].
    destruct (best_exists n cl0 cl1 W Wt D) as [y By].
    assert (Q : forall i, i < n -> vget (@mkVec Rnum n (fun i => the (fun r => exists y, best n cl0 cl1 y /\ r = y i))) i = y i).
    { intros i Hi. cbn [vget]. apply the_only; [exists y; auto|]. intros r (y' & By' & ->). exact (best_unique n cl0 cl1 W Wt y' y By' By i Hi). }
    destruct By as [H M]. destruct W as (a & b & E & Hne & W0 & W1 & Hk). injection E as <- <-. split.
    + intros w c Hin. apply (sat_ext n c y); [exact (W0 w c Hin)|intros i Hi; symmetry; exact (Q i Hi)|exact (H w c Hin)].
    + intros z Hz. rewrite (cost_ext reg8 n cl1 _ y W1 Hk Q). exact (M z Hz).
  - split; [intros H; contradiction|]. intros _. reflexivity.
Qed.
Definition hiding_answer (n : nat) (P : hqpdata Rnum) : fast_code * vec Rnum :=
  match exact_answer n P with (F_unbounded, _) => (F_infeasible, vzero n) | a => a end.
Theorem hiding_answer_finds n : finds n (hiding_answer n) /\ hides n (hiding_answer n) (vzero n).
Proof.
  split; intros cl0 cl1 W Wt A; destruct (exact_answer_exact n cl0 cl1 W Wt cl0 cl1 eq_refl) as [E1 E2]; unfold hiding_answer.
  - destruct (E1 A) as (X & Y). destruct (exact_answer n [cl0; cl1]) as [a y]. cbn [fst snd] in *. subst a. auto.
  - specialize (E2 A). destruct (exact_answer n [cl0; cl1]) as [a y]. cbn [fst snd] in *. subst a. reflexivity.
Qed.
