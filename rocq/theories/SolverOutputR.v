(** The objective value in terms of the tasks, and concrete runs for the theorems about the
    solvers' output. *)
From Coq Require Import String List Arith Bool ZArith QArith Reals Qreals Lia Lra.
From Verif Require Import Scalar Outcome Linalg Constraint FormPhysSpec RSum Solvers SolverSpec SolverSizes SolverHist SolverSem SolverCost SolverMain SolverRefute.
From Verif Require Import SolverOutput SolverRows SolverReport Check.
Import ListNotations.
Open Scope list_scope.
Open Scope nat_scope.

(** Half the weighted squares of the desired values: what the tasks would cost at zero. *)
Definition cost_at_rest (cl1 : level Rnum) : R :=
  (/ 2 * lsum (fun wc => fst wc * sqnorm (mrows (c_mat (snd wc))) (vget (c_vec (snd wc)))) cl1)%R.
Theorem objective_cost (inf : R) b dbg jk ji (o : ostate Rnum) cl0 cl1 a o' r :
  b <> Qpmad -> out_state inf b dbg o -> osolve (K:=Rnum) inf b dbg jk ji o [cl0; cl1] a = Ret o' r ->
  a_obj a = qp_cost (o_s o') (vget (a_x a)) ->
  objective_value (K:=Rnum) inf b o' = (least_squares (solve_reg b) (q_n (o_s o')) cl1 (vget (a_x a)) - cost_at_rest cl1)%R.
Proof.
  intros Nb S H Ha. pose proof (objective_last _ _ _ _ _ _ _ _ _ _ H) as E.
  assert (E' : objective_value (K:=Rnum) inf b o' = a_obj a) by (rewrite E; destruct b; congruence).
  rewrite E', Ha. clear E E' Ha. apply osolve_base in H as (H & _ & _). apply out_solver in S. apply state_sized in S.
  apply solve_prepare in H as (s1 & E & Es & _). rewrite Es.
  destruct (prepare_cost b dbg jk (o_s o) cl0 cl1 _ s1 (vget (a_x a)) S E) as (C & _ & _).
  change (qp_cost s1 (vget (a_x a)) = least_squares (solve_reg b) (q_n s1) cl1 (vget (a_x a)) - cost_at_rest cl1)%R.
  rewrite C, solve_reg_used. reflexivity.
Qed.

(** ** Stale multipliers *)
Definition jk0 : junk Qnum := fun _ _ _ => 0%Q.
Definition lam1 : vec Qnum := mkVec (K:=Qnum) 1 (fun _ => 7%Q).
Definition lam2 : vec Qnum := mkVec (K:=Qnum) 1 (fun _ => 8%Q).
Definition answer1 (b : backend) (c : code b) (l : vec Qnum) : answer Qnum b :=
  mkAns (K:=Qnum) b c (vzero 2) l [0%Z] 1 3%Z 0%Q.
Definition good_code (b : backend) : code b :=
  match b return code b with Eiq => false | Fast => F_optimal | Rt _ _ _ => F_optimal | Prox => P_solved | Osqp => O_solved | Qpmad => Q_ok end.
Definition bad_code (b : backend) : code b :=
  match b return code b with Eiq => true | Fast => F_unbounded | Rt _ _ _ => F_unbounded | Prox => P_primal_infeasible
  | Osqp => O_primal_infeasible | Qpmad => Q_infeasible_inequality end.
Definition calls (b : backend) : list (oop (K:=Qnum) b) :=
  [OSolve (K:=Qnum) b demo jk0 (fun _ => 0%Z) (answer1 b (good_code b) lam1)].
Definition fresh0 (b : backend) : ostate Qnum := out_new (K:=Qnum) b jk0 (fun _ => 0%Z) false St_unknown 0%Z 0%Q.
Definition then_bad (b : backend) (dbg : bool) : option (nat * Q * status) :=
  match run (ostep (K:=Qnum) 1%Q b dbg) (fresh0 b) (calls b) with
  | Some o => match osolve (K:=Qnum) 1%Q b dbg jk0 (fun _ => 0%Z) o demo (answer1 b (bad_code b) lam2) with
              | Ret o' (t, _) => Some (vlen (o_lam o'), vget (o_lam o') 0, t)
              | _ => None
              end
  | None => None
  end.
Definition stores_multipliers (b : backend) : Prop := b = Fast \/ b = Rt 2 1 1 \/ b = Prox \/ b = Osqp.
Lemma then_bad_value b dbg : stores_multipliers b -> then_bad b dbg = Some (1, 7%Q, St_infeasible).
Proof. intros [->|[->|[->| ->]]]; destruct dbg; vm_compute; reflexivity. Qed.
Theorem stale_multipliers b dbg : stores_multipliers b -> ~ multipliers_current (K:=Qnum) 1%Q b dbg.
Proof.
  intros Hb H. pose proof (then_bad_value b dbg Hb) as V. unfold then_bad in V.
  destruct (run (ostep (K:=Qnum) 1%Q b dbg) (fresh0 b) (calls b)) as [o|] eqn:R; [|discriminate].
  destruct (osolve (K:=Qnum) 1%Q b dbg jk0 (fun _ => 0%Z) o demo (answer1 b (bad_code b) lam2)) as [o' [t y]|o'|] eqn:E;
    try discriminate.
  injection V as V1 V2 _. apply run_reach in R.
  assert (S : out_state (K:=Qnum) 1%Q b dbg o).
  { exists jk0, (fun _ => 0%Z), false, St_unknown, 0%Z, 0%Q. exact R. }
  specialize (H o _ _ _ _ _ _ S E 0). rewrite V1, V2 in H. specialize (H Nat.lt_0_1). discriminate H.
Qed.

(** ** Multipliers of the demo *)
Definition zero_jk : junk Rnum := fun _ _ _ => 0%R.
(** x = (2, -1) with multiplier -1 + reg/2 of the equality and 1 - 3 reg/2 of the upper side. *)
Definition demo_u (k : nat) : R := (- 1 + / 2 * / 100000000)%R.
Definition demo_z (k : nat) : R := if k =? 1 then (1 - 3 / 2 * / 100000000)%R else 0%R.
Lemma demo_multipliers dbg s ans x0 : solver_state Fast dbg s -> exists s' r,
  solve Fast dbg zero_jk s (@demo Rnum) ans x0 = Ret s' r /\ multipliers Fast s' (pt 2 (-1)) demo_u demo_z.
Proof.
  intros S. destruct (demo_solved Fast dbg zero_jk s ans x0 I S) as (s' & r & E & _). exists s', r. split; [exact E|].
  apply (multipliers_iff Fast dbg zero_jk s 2 hard soft ans x0 s' r); [discriminate|apply (demo_usable Fast); [exact I|exact S]|apply demo_pwf|exact E|].
  split.
  - intros h. unfold priced_slope, slope, solve_reg, task_slope, residual, qrow, pt, demo_u, demo_z, priced, line_change. cbn. rewrite ?Q2R_int.
    field.
  - intros k j i d H. destruct k as [|[|[|k]]]; cbn in H; try discriminate H; injection H as <- <- <-;
      exists (q 1), c_diff; (split; [reflexivity|]); (split; [apply Nat.lt_0_1|]); unfold reached, demo_z; cbn.
    + split; [apply Rle_refl|]. intros H; destruct (H eq_refl).
    + split; [lra|]. intros _. unfold pt. cbn. rewrite ?Q2R_int. lra.
Qed.

(** ** Objective value on the demo *)
Lemma rest_demo : cost_at_rest soft = 9%R.
Proof. unfold cost_at_rest, sqnorm. cbn. rewrite ?Q2R_int. lra. Qed.
Lemma objective_demo dbg jk ji (o : ostate Rnum) x l : out_state 0%R Prox dbg o ->
  exists a o' r, osolve (K:=Rnum) 0%R Prox dbg jk ji o (@demo Rnum) a = Ret o' r /\ a_x a = x /\ a_lam a = l /\
    a_obj a = qp_cost (o_s o') (vget (a_x a)) /\ q_n (o_s o') = 2 /\
    objective_value (K:=Rnum) 0%R Prox o' = (least_squares 0 2 soft (vget x) - 9)%R.
Proof.
  intros S. destruct (demo_solved Prox dbg jk (o_s o) P_solved x I (out_solver _ _ _ _ S)) as (s' & r & E & N).
  set (a := mkAns (K:=Rnum) Prox P_solved x l [] 0 0%Z (qp_cost s' (vget x))).
  assert (H : exists o', osolve (K:=Rnum) 0%R Prox dbg jk ji o (@demo Rnum) a = Ret o' r /\ o_s o' = s').
  { unfold osolve. change (acode 0%R Prox a) with P_solved. change (a_x a) with x. rewrite E.
    eexists. split; reflexivity. }
  destruct H as (o' & H & Es). exists a, o', r. split; [exact H|]. split; [reflexivity|]. split; [reflexivity|].
  assert (Q : a_obj a = qp_cost (o_s o') (vget (a_x a))) by (rewrite Es; reflexivity). split; [exact Q|].
  split; [rewrite Es; exact N|].
  rewrite (objective_cost 0%R Prox dbg jk ji o hard soft a o' r); [|discriminate|exact S|exact H|exact Q].
  rewrite rest_demo, Es, N. reflexivity.
Qed.
(** "getObjectiveValue is the cost of the tasks." *)
Definition objective_is_cost (b : backend) dbg : Prop :=
  forall jk ji (o : ostate Rnum) cl0 cl1 a o' r, out_state 0%R b dbg o ->
    osolve (K:=Rnum) 0%R b dbg jk ji o [cl0; cl1] a = Ret o' r -> a_obj a = qp_cost (o_s o') (vget (a_x a)) ->
    objective_value (K:=Rnum) 0%R b o' = least_squares (solve_reg b) (q_n (o_s o')) cl1 (vget (a_x a)).
Definition fresh_out (b : backend) : ostate Rnum := out_new (K:=Rnum) b zero_jk (fun _ => 0%Z) false St_unknown 0%Z 0%R.
Lemma fresh_out_state inf b dbg : out_state inf b dbg (fresh_out b).
Proof. exists zero_jk, (fun _ => 0%Z), false, St_unknown, 0%Z, 0%R. constructor. Qed.
Theorem objective_not_cost dbg : ~ objective_is_cost Prox dbg.
Proof.
  intros H. destruct (objective_demo dbg zero_jk (fun _ => 0%Z) (fresh_out Prox) (vzero 2) (vzero 0) (fresh_out_state _ _ _))
    as (a & o' & r & E & Ex & _ & Ea & En & Eo).
  specialize (H _ _ _ hard soft _ _ _ (fresh_out_state _ _ _) E Ea). rewrite Eo, En, Ex in H. cbn [solve_reg] in H. lra.
Qed.

(** ** Messages on the demo: (5, 0) breaks both rows, (2, -1) none. *)
Lemma demo_messages : exists m1 m2, messages sqrt true true (@hard Rnum) (mkVec (K:=Rnum) 2 (pt 5 0)) = Some [m1; m2] /\
  m_name m1 = "sum"%string /\ m_name m2 = "diff"%string /\ m_lo m2 = 6%R /\ m_up m2 = (-2)%R.
Proof.
  destruct (report_spec 2 hard (mkVec (K:=Rnum) 2 (pt 5 0)) hard_lwf eq_refl) as (ms & E & R). cbn [vget] in R.
  assert (B1 : ~ within c_sum (pt 5 0) (/ 1000000)).
  { unfold within. cbn. unfold sqnorm, qrow, pt. cbn. rewrite ?Q2R_int. intros H.
    match type of H with (sqrt ?e < _)%R => replace e with (4 * 4)%R in H by ring end.
    rewrite sqrt_square in H by lra. lra. }
  assert (B2 : ~ within c_diff (pt 5 0) (/ 1000000)).
  { unfold within. cbn. intros H. specialize (H 0 Nat.lt_0_1). revert H. unfold qrow, pt. cbn. rewrite ?Q2R_int. lra. }
  inversion R as [|w c l ms' W R' E1 E2|w c l m1 ms' W D1 R' E1 E2]; subst; [destruct (B1 W)|].
  inversion R' as [|w2 c2 l2 ms2 W2 R2 E1 E2|w2 c2 l2 m2 ms2 W2 D2 R2 E1 E2]; subst; [destruct (B2 W2)|].
  inversion R2; subst. exists m1, m2. split; [exact E|].
  destruct D1 as (N1 & _). destruct D2 as (N2 & _ & ((i & Hi & V1) & _) & ((k & Hk & V2) & _) & _).
  split; [exact N1|]. split; [exact N2|]. cbn in Hi, Hk. assert (i = 0) by lia. assert (k = 0) by lia. subst i k.
  rewrite V1, V2. cbn. unfold qrow, pt. cbn. rewrite ?Q2R_int. lra.
Qed.
Lemma demo_quiet dbg opt : messages sqrt dbg opt (@hard Rnum) (mkVec (K:=Rnum) 2 (pt 2 (-1))) = Some [].
Proof. apply (report_exact 2); [apply hard_lwf|reflexivity|]. apply hard_point. lra. Qed.
