(** Concrete problems for the theorems of SolverMain, and what happens outside their
    hypotheses. *)
From Coq Require Import String List Arith Bool QArith Reals Qreals Lia Lra.
From Verif Require Import Scalar Outcome Linalg Constraint FormPhysSpec RSum Solvers SolverSpec SolverSizes SolverHist SolverSem SolverCost SolverMain.
Import ListNotations.
Open Scope string_scope.
Open Scope list_scope.
Open Scope nat_scope.

Section Problems.
Context {K : num}.
Implicit Types (s : sst K) (P : hqpdata K).
Definition q (x : Q) : K := nofQ x.
Definition row (l : list Q) : nat -> nat -> K := fun _ j => q (nth j l 0%Q).
(** x0 + x1 = 1;  -1 <= x0 - x1 <= 3;  -5 <= x <= 5 *)
Definition c_sum : constr K := mkConstr "sum" CEq (mkMat 1 2 (row [1%Q; 1%Q])) (mkVec 1 (fun _ => q 1)) (vzero 0) (vzero 0).
Definition c_diff : constr K := mkConstr "diff" CIneq (mkMat 1 2 (row [1%Q; (-1)%Q])) (vzero 0) (mkVec 1 (fun _ => q (-1))) (mkVec 1 (fun _ => q 3)).
Definition c_box : constr K := mkConstr "box" CBound (mident 2 2) (vzero 0) (mkVec 2 (fun _ => q (-5))) (mkVec 2 (fun _ => q 5)).
(** 2 |x0 - 3|^2 *)
Definition c_task : constr K := mkConstr "task" CEq (mkMat 1 2 (row [1%Q; 0%Q])) (mkVec 1 (fun _ => q 3)) (vzero 0) (vzero 0).
Definition hard : level K := [(q 1, c_sum); (q 1, c_diff)].
Definition hard_box : level K := [(q 1, c_sum); (q 1, c_diff); (q 1, c_box)].
Definition soft : level K := [(q 2, c_task)].
Definition demo : hqpdata K := [hard; soft].
Definition demo_box : hqpdata K := [hard_box; soft].
Definition demo_bad : hqpdata K := [hard; [(q 2, c_task); (q 1, c_diff)]].

Lemma hard_lwf : lwf 2 hard.
Proof. intros w c [H|[H|[]]]; injection H as <- <-; cbv; auto. Qed.
Lemma hard_box_lwf : lwf 2 hard_box.
Proof. intros w c [H|[H|[H|[]]]]; injection H as <- <-; cbv; auto. Qed.
Lemma soft_lwf : lwf 2 soft.
Proof. intros w c [H|[]]; injection H as <- <-; cbv; auto. Qed.
Lemma demo_pwf : pwf 2 demo.
Proof.
  exists hard, soft. split; [reflexivity|]. split; [discriminate|]. split; [apply hard_lwf|]. split; [apply soft_lwf|].
  intros w c [H|[]]; injection H as <- <-; reflexivity.
Qed.
Lemma demo_box_pwf : pwf 2 demo_box.
Proof.
  exists hard_box, soft. split; [reflexivity|]. split; [discriminate|]. split; [apply hard_box_lwf|]. split; [apply soft_lwf|].
  intros w c [H|[]]; injection H as <- <-; reflexivity.
Qed.
Lemma bad_lwf : lwf 2 (nth 1 demo_bad []).
Proof. intros w c [H|[H|[]]]; injection H as <- <-; cbv; auto. Qed.
Lemma hard_no_bound : ~ has_bound hard.
Proof. intros (w & c & [H|[H|[]]] & E); injection H as <- <-; discriminate. Qed.
Lemma hard_box_bound : has_bound hard_box.
Proof. exists (q 1), c_box. split; [cbn; auto|reflexivity]. Qed.

(** The back-ends with, for rt, the sizes of [demo] ([2; 1; 1]) or of [demo_box]. *)
Definition fitting (k : nat) (b : backend) : Prop := match b with Rt nv ne ni => nv = 2 /\ ne = 1 /\ ni = k | _ => True end.
Lemma demo_fits b : fitting 1 b -> fits b 2 demo.
Proof. destruct b; cbn; intuition. Qed.
Lemma demo_bad_fits b : fitting 1 b -> fits b 2 demo_bad.
Proof. destruct b; cbn; intuition. Qed.
Lemma demo_box_fits b : fitting 3 b -> fits b 2 demo_box.
Proof. destruct b; cbn; intuition. Qed.

Lemma new_state b dbg jk hb st : solver_state b dbg (@solver_new K b jk hb st).
Proof. exists jk, hb, st. constructor. Qed.
Lemma demo_usable b dbg s : fitting 1 b -> solver_state b dbg s -> usable b dbg 2 demo s.
Proof.
  intros F S. split; [exact S|]. split; [apply demo_fits; exact F|]. intros _ (c0 & r & E & HB). injection E as <- _.
  destruct (hard_no_bound HB).
Qed.
Lemma demo_box_usable b dbg jk hb st : fitting 3 b -> usable b dbg 2 demo_box (@solver_new K b jk hb st).
Proof.
  intros F. split; [apply new_state|]. split; [apply demo_box_fits; exact F|]. intros -> _. exists jk, hb, st. constructor.
Qed.
(** The number of variables is the problem's. *)
Lemma solve_n b dbg jk s n P ans x s' r : usable b dbg n P s -> pwf n P -> solve b dbg jk s P ans x = Ret s' r -> q_n s' = n.
Proof.
  intros U W H. assert (U' := U). destruct U as (S & F & _). apply state_sized in S.
  destruct (prepare_ok b dbg jk s n P (default_flag b) S W F) as (s1 & E & N).
  { destruct W as (cl0 & cl1 & -> & _). cbn [nth_error]. intros c0 H0; injection H0 as <-. eapply usable_ready; exact U'. }
  apply solve_prepare in H as (s2 & E2 & -> & _). rewrite E in E2. injection E2 as <-. exact N.
Qed.
Lemma demo_solved b dbg jk s ans x : fitting 1 b -> solver_state b dbg s ->
  exists s' r, solve b dbg jk s demo ans x = Ret s' r /\ q_n s' = 2.
Proof.
  intros F S. destruct (accept b dbg jk s 2 demo ans x (demo_usable b dbg s F S) demo_pwf) as (s' & r & E).
  exists s', r. split; [exact E|]. eapply solve_n; [apply demo_usable; eassumption|apply demo_pwf|exact E].
Qed.
Lemma demo_box_solved b dbg jk jk0 hb st ans x : fitting 3 b ->
  exists s' r, solve b dbg jk (@solver_new K b jk0 hb st) demo_box ans x = Ret s' r /\ q_n s' = 2.
Proof.
  intros F. destruct (accept b dbg jk _ 2 demo_box ans x (demo_box_usable b dbg jk0 hb st F) demo_box_pwf) as (s' & r & E).
  exists s', r. split; [exact E|]. eapply solve_n; [apply demo_box_usable; eassumption|apply demo_box_pwf|exact E].
Qed.
Lemma demo_bad_rejected b dbg jk s ans x : fitting 1 b -> solver_state b dbg s ->
  exists s', solve b dbg jk s demo_bad ans x = Exc s'.
Proof.
  intros F S. apply (reject_cost b dbg jk s 2 hard [(q 2, c_task); (q 1, c_diff)]).
  - split; [exact S|]. split; [apply demo_bad_fits; exact F|]. intros _ (c0 & r & E & HB). injection E as <- _.
    destruct (hard_no_bound HB).
  - discriminate.
  - apply hard_lwf.
  - apply bad_lwf.
  - exists (q 1), c_diff. split; [cbn; auto|discriminate].
Qed.
End Problems.

(** The demo at the reals. *)
Lemma Q2R_int (z : BinInt.Z) : Q2R (z # 1) = IZR z.
Proof. unfold Q2R. simpl. lra. Qed.
Definition pt (a b : R) (i : nat) : R := if i =? 0 then a else b.
Ltac pts := cbn; unfold pt; cbn; rewrite ?Q2R_int; lra.
Lemma hard_point a b : hard_ok hard (pt a b) <-> (a + b = 1 /\ -1 <= a - b <= 3)%R.
Proof.
  split.
  - intros H. assert (H1 := H (q 1) c_sum (or_introl eq_refl)). assert (H2 := H (q 1) c_diff (or_intror (or_introl eq_refl))).
    specialize (H1 0 Nat.lt_0_1). specialize (H2 0 Nat.lt_0_1). revert H1 H2. cbn. unfold pt. cbn. rewrite ?Q2R_int. lra.
  - intros H w c [E|[E|[]]]; injection E as <- <-; intros i Hi; cbn in Hi; (destruct i; [|lia]); pts.
Qed.
Lemma box_point a b : hard_ok hard_box (pt a b) <-> (a + b = 1 /\ -1 <= a - b <= 3 /\ -5 <= a <= 5 /\ -5 <= b <= 5)%R.
Proof.
  split.
  - intros H. assert (H1 := H (q 1) c_sum (or_introl eq_refl)). assert (H2 := H (q 1) c_diff (or_intror (or_introl eq_refl))).
    assert (H3 := H (q 1) c_box (or_intror (or_intror (or_introl eq_refl)))).
    specialize (H1 0 Nat.lt_0_1). specialize (H2 0 Nat.lt_0_1).
    assert (H4 := H3 0 Nat.lt_0_2). specialize (H3 1 Nat.lt_1_2).
    revert H1 H2 H3 H4. cbn. unfold pt. cbn. rewrite ?Q2R_int. lra.
  - intros H w c [E|[E|[E|[]]]]; injection E as <- <-; intros i Hi; cbn in Hi.
    + destruct i; [|lia]; pts.
    + destruct i; [|lia]; pts.
    + destruct i as [|[|i]]; [| |lia]; pts.
Qed.
Lemma soft_cost r a b : least_squares r 2 soft (pt a b) = ((a - 3) * (a - 3) + / 2 * r * (a * a + b * b))%R.
Proof. unfold least_squares, task_cost, sqnorm, residual, qrow. cbn. unfold pt. cbn. rewrite !Q2R_int. lra. Qed.

(** C23 without regularisation: the cost sees x0 only. *)
Definition loose : level Rnum := [(q 1, c_diff)].
Definition demo_loose : hqpdata Rnum := [loose; soft].
Lemma loose_pwf : pwf 2 demo_loose.
Proof.
  exists loose, soft. split; [reflexivity|]. split; [discriminate|]. split.
  { intros w c [H|[]]; injection H as <- <-; cbv; auto. }
  split; [apply soft_lwf|]. intros w c [H|[]]; injection H as <- <-; reflexivity.
Qed.
Lemma loose_usable b dbg s : ~ regularised b -> solver_state b dbg s -> usable b dbg 2 demo_loose s.
Proof.
  intros N S. split; [exact S|]. split.
  - destruct b; cbn; auto. exfalso. apply N. split; discriminate.
  - intros _ (c0 & r & E & HB). injection E as <- _. destruct HB as (w & c & [H|[]] & Hk). injection H as <- <-. discriminate.
Qed.
Lemma loose_point a b : hard_ok loose (pt a b) <-> (-1 <= a - b <= 3)%R.
Proof.
  split.
  - intros H. assert (H1 := H (q 1) c_diff (or_introl eq_refl) 0 Nat.lt_0_1). revert H1. cbn. unfold pt. cbn. rewrite ?Q2R_int. lra.
  - intros H w c [E|[]]; injection E as <- <-; intros i Hi; cbn in Hi; (destruct i; [|lia]); pts.
Qed.
Theorem unique_refuted b dbg jk s ans x0 : ~ regularised b -> solver_state b dbg s ->
  exists s' r x y, solve b dbg jk s demo_loose ans x0 = Ret s' r /\ pwf 2 demo_loose /\ q_n s' = 2 /\
    (forall w c, In (w, c) soft -> (0 <= (w : R))%R) /\
    qp_feasible b s' x /\ qp_feasible b s' y /\
    (forall z, (qp_cost s' x <= qp_cost s' z)%R) /\ (forall z, (qp_cost s' y <= qp_cost s' z)%R) /\ x 1 <> y 1.
Proof.
  intros N S. assert (U := loose_usable b dbg s N S).
  destruct (accept b dbg jk s 2 demo_loose ans x0 U loose_pwf) as (s' & r & E).
  assert (Nn := solve_n _ _ _ _ _ _ _ _ _ _ U loose_pwf E).
  assert (F : fits b (q_n s') demo_loose) by (rewrite Nn; apply U).
  pose proof (solve_feasible _ _ _ _ _ _ _ _ _ _ S F E) as G.
  destruct (solve_cost _ _ _ _ _ _ _ _ _ _ S E) as [k C].
  assert (R0 : solve_reg b = 0%R).
  { destruct b; cbn; auto; exfalso; apply N; split; discriminate. }
  assert (B : forall z, qpmad_box b loose (q_n s') z).
  { intros z Hb HB. exfalso. destruct HB as (w & c & [H|[]] & Hk). injection H as <- <-. discriminate. }
  assert (M2 : forall t z, (qp_cost s' (pt 3 t) <= qp_cost s' z)%R).
  { intros t z. rewrite !C, Nn, soft_cost, R0. unfold least_squares, task_cost, sqnorm, residual, qrow. cbn.
    rewrite !Q2R_int. assert (D := Rle_0_sqr (z 0 - 3)). unfold Rsqr in D. nra. }
  exists s', r, (pt 3 0), (pt 3 1). split; [exact E|]. split; [apply loose_pwf|]. split; [exact Nn|]. split.
  { intros w c [H|[]]. injection H as <- _. cbn. rewrite Q2R_int. lra. }
  split; [apply G; split; [apply loose_point; lra|apply B]|].
  split; [apply G; split; [apply loose_point; lra|apply B]|].
  split; [intros z; apply M2|]. split; [intros z; apply M2|]. cbv. lra.
Qed.

(** C24 for qpmad with bounds: every coordinate is forced to be positive. *)
Lemma dbl_min_pos : (0 < @dbl_min Rnum)%R.
Proof. cbn [dbl_min nofQ Rnum]. replace 0%R with (Q2R 0) by (unfold Q2R; cbn; lra). apply Qlt_Rlt. reflexivity. Qed.
Theorem same_problem_refuted dbg jk1 jk2 jk hb st ans1 ans2 x1 x2 :
  exists s1 r1 s2 r2 x,
    solve Qpmad dbg jk1 (solver_new Qpmad jk hb st) demo_box ans1 x1 = Ret s1 r1 /\
    solve Eiq dbg jk2 (solver_new Eiq jk hb st) demo_box ans2 x2 = Ret s2 r2 /\
    hard_ok hard_box x /\ qp_feasible Eiq s2 x /\ ~ qp_feasible Qpmad s1 x.
Proof.
  destruct (demo_box_solved (K:=Rnum) Qpmad dbg jk1 jk hb st ans1 x1 I) as (s1 & r1 & E1 & N1).
  destruct (demo_box_solved (K:=Rnum) Eiq dbg jk2 jk hb st ans2 x2 I) as (s2 & r2 & E2 & N2).
  exists s1, r1, s2, r2, (pt 2 (-1)). split; [exact E1|]. split; [exact E2|].
  assert (H : hard_ok hard_box (pt 2 (-1))) by (apply box_point; lra). split; [exact H|].
  split.
  - apply (solve_feasible _ _ _ _ _ _ _ _ _ _ (new_state Eiq dbg jk hb st) I E2). split; [exact H|]. intros H'; discriminate.
  - intros Q. apply (solve_feasible _ _ _ _ _ _ _ _ _ _ (new_state Qpmad dbg jk hb st) I E1) in Q as [_ Q].
    specialize (Q eq_refl hard_box_bound 1). rewrite N1 in Q. specialize (Q Nat.lt_1_2). unfold pt in Q. cbn [Nat.eqb] in Q.
    assert (D := dbl_min_pos). lra.
Qed.

(** C25, C26 for qpmad: a problem without bounds, then one with bounds. *)
Definition zj : junk Qnum := fun _ _ _ => 0%Q.
Definition undef {S A} (r : outcome S A) : bool := match r with Undef => true | _ => false end.
Lemma undef_ok {S A} (r : outcome S A) : undef r = true -> r = Undef.
Proof. destruct r; [discriminate|discriminate|reflexivity]. Qed.
Definition state_of (r : outcome (sst Qnum) (status * vec Qnum)) (s : sst Qnum) : sst Qnum := match r with Ret s' _ => s' | _ => s end.
Definition qp0 dbg : sst Qnum :=
  state_of (solve Qpmad dbg zj (solver_new Qpmad zj false St_unknown) demo Q_ok (vzero 2)) (solver_new Qpmad zj false St_unknown).
Theorem accept_refuted dbg : exists s, solver_state Qpmad dbg s /\ pwf 2 (@demo_box Qnum) /\
  (exists s' r, solve Qpmad dbg zj (solver_new Qpmad zj false St_unknown) demo_box Q_ok (vzero 2) = Ret s' r) /\
  solve Qpmad dbg zj s demo_box Q_ok (vzero 2) = Undef.
Proof.
  destruct (demo_solved (K:=Qnum) Qpmad dbg zj (solver_new Qpmad zj false St_unknown) Q_ok (vzero 2) I (new_state _ _ _ _ _)) as (s & r & E & _).
  exists s. split.
  - exists zj, false, St_unknown. eapply (reach_step _ _ _ _ (SSolve Qpmad demo zj Q_ok (vzero 2))); [constructor|exact I|].
    cbn [sstep]. rewrite E. reflexivity.
  - split; [apply demo_box_pwf|]. split.
    + destruct (demo_box_solved (K:=Qnum) Qpmad dbg zj zj false St_unknown Q_ok (vzero 2) I) as (s' & r' & E' & _). eauto.
    + replace s with (qp0 dbg) by (unfold qp0; rewrite E; reflexivity). apply undef_ok. destruct dbg; vm_compute; reflexivity.
Qed.

(** C26 for problems with a single level: the cost of the previous problem is kept. *)
Definition one_level : hqpdata Qnum := [hard].
Definition alone dbg : sst Qnum :=
  state_of (solve Eiq dbg zj (solver_new Eiq zj false St_unknown) one_level false (vzero 2)) (solver_new Eiq zj false St_unknown).
Definition second dbg : sst Qnum :=
  state_of (solve Eiq dbg zj (solver_new Eiq zj false St_unknown) demo false (vzero 2)) (solver_new Eiq zj false St_unknown).
Definition kept dbg : sst Qnum := state_of (solve Eiq dbg zj (second dbg) one_level false (vzero 2)) (second dbg).
Lemma is_ret (r : outcome (sst Qnum) (status * vec Qnum)) s0 :
  match r with Ret _ _ => true | _ => false end = true -> exists a, r = Ret (state_of r s0) a.
Proof. destruct r; try discriminate. eauto. Qed.
Theorem independent_refuted dbg : exists s1 s2 s1' s2' r1 r2,
  solver_state Eiq dbg s1 /\ solver_state Eiq dbg s2 /\
  solve Eiq dbg zj s1 one_level false (vzero 2) = Ret s1' r1 /\ solve Eiq dbg zj s2 one_level false (vzero 2) = Ret s2' r2 /\
  mget (q_H s1') 0 0 = 0%Q /\ mget (q_H s2') 0 0 = (200000001 # 100000000)%Q.
Proof.
  exists (solver_new Eiq zj false St_unknown), (second dbg), (alone dbg), (kept dbg).
  destruct (is_ret (solve Eiq dbg zj (solver_new Eiq zj false St_unknown) one_level false (vzero 2)) (solver_new Eiq zj false St_unknown)) as (r1 & E1);
    [destruct dbg; vm_compute; reflexivity|].
  destruct (is_ret (solve Eiq dbg zj (second dbg) one_level false (vzero 2)) (second dbg)) as (r2 & E2);
    [destruct dbg; vm_compute; reflexivity|].
  exists r1, r2. split; [apply new_state|]. split.
  - exists zj, false, St_unknown. eapply (reach_step _ _ _ _ (SSolve Eiq demo zj false (vzero 2))); [constructor|exact I|].
    cbn [sstep]. unfold second.
    destruct (demo_solved (K:=Qnum) Eiq dbg zj (solver_new Eiq zj false St_unknown) false (vzero 2) I (new_state _ _ _ _ _)) as (s & r & E & _).
    rewrite E. reflexivity.
  - split; [exact E1|]. split; [exact E2|]. split; destruct dbg; vm_compute; reflexivity.
Qed.

(** C27: after an optimum, a call whose result is not looked at reports "optimal". *)
Definition unseen (b : backend) : option (code b * code b) :=
  match b return option (code b * code b) with
  | Fast => Some (F_optimal, F_infeasible)
  | Rt _ _ _ => Some (F_optimal, F_infeasible)
  | Prox => Some (P_solved, P_closest)
  | _ => None
  end.
Theorem status_refuted (K : num) b dbg jk hb st good bad (x y : vec K) : unseen b = Some (good, bad) -> fitting 1 b ->
  exists s r s' z, solve b dbg jk (solver_new b jk hb st) demo good x = Ret s r /\
    solve b dbg jk s demo bad y = Ret s' (St_optimal, z) /\ ~ optimum b bad /\ optimum b good.
Proof.
  intros U F. destruct (demo_solved (K:=K) b dbg jk (solver_new b jk hb st) good x F (new_state _ _ _ _ _)) as (s & r & E & _).
  assert (S : solver_state b dbg s).
  { exists jk, hb, st. eapply (reach_step _ _ _ _ (SSolve b demo jk good x)); [constructor|exact I|].
    cbn [sstep]. rewrite E. reflexivity. }
  destruct (demo_solved (K:=K) b dbg jk s bad y F S) as (s' & [t z] & E' & _).
  assert (C : optimum b good /\ ~ optimum b bad /\ handled b good /\ ~ handled b bad).
  { destruct b; cbn in U; try discriminate; injection U as <- <-; cbn; intuition discriminate. }
  destruct C as (C1 & C2 & C3 & C4). destruct r as [t0 z0].
  destruct (solve_status _ _ _ _ _ _ _ _ _ _ E) as (A & _ & _ & Q & _). destruct (A C3) as [A' _].
  assert (T0 : t0 = St_optimal) by (apply A'; exact C1).
  destruct (solve_status _ _ _ _ _ _ _ _ _ _ E') as (_ & Bd & _). specialize (Bd C4).
  exists s, (t0, z0), s', z. split; [exact E|]. split; [|auto]. rewrite E'. congruence.
Qed.
