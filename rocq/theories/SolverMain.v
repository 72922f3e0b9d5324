(** Properties of solve over every history of one solver object. *)
From Coq Require Import List Arith Bool Reals QArith Qreals Lia Lra.
From Verif Require Import Scalar Outcome Linalg Constraint FormPhysSpec RSum Solvers SolverSpec SolverSizes SolverHist SolverSem SolverCost.
Import ListNotations.
Open Scope nat_scope.

Section Gen.
Context {K : num}.
Implicit Types (s : sst K) (P : hqpdata K).

Lemma solve_prepare b dbg jk s P ans x s' r : solve b dbg jk s P ans x = Ret s' r ->
  exists s1, prepare b dbg jk s P (default_flag b) = Ret s1 tt /\
    s' = w_out s1 (new_x b (q_x s1) x ans) (new_status b (q_status s1) ans) /\ r = (q_status s', q_x s').
Proof.
  unfold solve. destruct (prepare b dbg jk s P (default_flag b)) as [s1 []|s1|]; try discriminate.
  intros H; injection H as <- <-. exists s1. auto.
Qed.
Lemma same_out b s1 s2 x1 t1 x2 t2 : same_qp b s1 s2 -> same_qp b (w_out s1 x1 t1) (w_out s2 x2 t2).
Proof. destruct b; exact (fun H => H). Qed.

Lemma solve_exc b dbg jk s P ans x s' : prepare b dbg jk s P (default_flag b) = Exc s' -> solve b dbg jk s P ans x = Exc s'.
Proof. unfold solve. intros ->. reflexivity. Qed.

(** C26 *)
Theorem solve_independent b dbg1 dbg2 jk1 jk2 s1 s2 n P ans1 ans2 x1 x2 s1' s2' r1 r2 :
  solver_state b dbg1 s1 -> solver_state b dbg2 s2 -> pwf n P -> fits b n P ->
  solve b dbg1 jk1 s1 P ans1 x1 = Ret s1' r1 -> solve b dbg2 jk2 s2 P ans2 x2 = Ret s2' r2 -> same_qp b s1' s2'.
Proof.
  intros Q1 Q2 W F H1 H2. apply solve_prepare in H1 as (u1 & E1 & -> & _). apply solve_prepare in H2 as (u2 & E2 & -> & _).
  apply same_out. eapply (prepare_hist b dbg1 dbg2); eauto.
Qed.

(** C27 *)
Lemma resize_status b dbg jk s n neq nin s' : resize b dbg jk s n neq nin = Some s' -> q_status s' = q_status s.
Proof.
  unfold resize. destruct b; try (intros H; injection H as <-; reflexivity).
  destruct (_ && _); [discriminate|]. intros H; injection H as <-. reflexivity.
Qed.
Lemma note_status b s h : q_status (note_bounds b s h) = q_status s. Proof. destruct b; reflexivity. Qed.
Lemma reset_status b s : q_status (reset_bounds b s) = q_status s.
Proof. destruct b; try reflexivity. cbn. destruct (q_hasb s); reflexivity. Qed.
Lemma level0_status b dbg jk s cl0 s' : level0 b dbg jk s cl0 = Some s' -> q_status s' = q_status s.
Proof.
  destruct cl0 as [|wc l]; cbn [level0].
  - intros H. apply resize_status in H. rewrite H. apply note_status.
  - intros H. destruct (ccols (snd wc)) as [n|]; [cbn [obind] in H|discriminate].
    destruct (counts b n (wc :: l)) as [[[e i] h]|]; [cbn [obind] in H|discriminate].
    destruct (resize b dbg jk (note_bounds b s h) n e i) as [u|] eqn:E; [cbn [obind] in H|discriminate].
    destruct (ofold (fill b) (wc :: l) (reset_bounds b u, 0, 0)) as [[[v a1] b1]|] eqn:G; [cbn [obind] in H|discriminate].
    injection H as <-. apply fills_dims in G as [_ G]. unfold rest in G. injection G as _ _ _ _ ->.
    rewrite reset_status. apply resize_status in E. rewrite E. apply note_status.
Qed.
Lemma prepare_status b dbg jk s P flag s' : prepare b dbg jk s P flag = Ret s' tt -> q_status s' = q_status s.
Proof.
  destruct P as [|cl0 P]; [discriminate|]. cbn [prepare]. destruct (2 <? _); [discriminate|].
  destruct (level0 b dbg jk s cl0) as [s1|] eqn:E; [|discriminate]. apply level0_status in E.
  destruct P as [|cl1 P]; [intros H; injection H as <-; exact E|]. intros H.
  pose proof (level1_dims b flag s1 cl1) as D. rewrite H in D. destruct D as [_ ->]. exact E.
Qed.
Lemma status_handled b (ans : code b) t1 t2 : handled b ans -> new_status b t1 ans = new_status b t2 ans.
Proof. destruct b, ans; cbn; try reflexivity; intuition congruence. Qed.
Lemma status_stale b (ans : code b) t : ~ handled b ans -> new_status b t ans = t.
Proof. destruct b, ans; cbn; intros H; try reflexivity; exfalso; apply H; try exact I; try discriminate; split; discriminate. Qed.
Lemma status_optimal b (ans : code b) t : handled b ans -> new_status b t ans = St_optimal <-> optimum b ans.
Proof. destruct b, ans; cbn; intuition (try congruence; try discriminate). Qed.
Lemma status_cases b (ans : code b) t : handled b ans ->
  (new_status b t ans = St_infeasible <-> no_solution b ans) /\ (new_status b t ans = St_max_iter <-> gave_up b ans).
Proof. destruct b, ans; cbn; intuition (try congruence; try discriminate). Qed.
Lemma x_optimal b (ans : code b) (old x : vec K) : optimum b ans -> new_x b old x ans = x.
Proof. destruct b, ans; cbn; intros; try reflexivity; try discriminate. Qed.
Theorem solve_status b dbg jk s P ans x s' t y : solve b dbg jk s P ans x = Ret s' (t, y) ->
  (handled b ans -> (t = St_optimal <-> optimum b ans) /\ (t = St_infeasible <-> no_solution b ans) /\
    (t = St_max_iter <-> gave_up b ans)) /\
  (~ handled b ans -> t = q_status s) /\ (optimum b ans -> y = x) /\ q_status s' = t /\ q_x s' = y.
Proof.
  intros H. apply solve_prepare in H as (s1 & E & -> & R). injection R as -> ->. cbn [w_out q_status q_x].
  apply prepare_status in E. split; [|split; [|split]].
  - intros Hh. split; [apply status_optimal; exact Hh|apply status_cases; exact Hh].
  - intros Hh. rewrite status_stale by exact Hh. exact E.
  - apply x_optimal.
  - split; reflexivity.
Qed.
Theorem solve_same_status b dbg1 dbg2 jk1 jk2 s1 s2 P1 P2 ans x1 x2 s1' s2' t1 t2 y1 y2 : handled b ans ->
  solve b dbg1 jk1 s1 P1 ans x1 = Ret s1' (t1, y1) -> solve b dbg2 jk2 s2 P2 ans x2 = Ret s2' (t2, y2) -> t1 = t2.
Proof.
  intros Hh H1 H2. apply solve_prepare in H1 as (u1 & _ & -> & E1). apply solve_prepare in H2 as (u2 & _ & -> & E2).
  injection E1 as -> _. injection E2 as -> _. cbn [w_out q_status]. apply status_handled. exact Hh.
Qed.

(** C25 *)
Theorem reject_levels b dbg jk s P ans x : 2 < List.length P -> solve b dbg jk s P ans x = Exc s.
Proof.
  intros H. unfold solve. destruct P as [|cl0 P]; [cbn in H; lia|]. cbn [prepare].
  replace (2 <? List.length (cl0 :: P)) with true by (symmetry; apply Nat.ltb_lt; exact H). reflexivity.
Qed.
Definition boxed (P : hqpdata K) : Prop := exists cl0 r, P = cl0 :: r /\ has_bound cl0.
(** Calls on a solver object whose problems all have bounds. *)
Definition boxed_op b (_ : sst K) (o : sop K b) : Prop :=
  match o with SResize _ _ _ _ _ => False | SRetrieve _ P _ _ => boxed P | SSolve _ P _ _ _ => boxed P end.
Lemma level0_lb dbg jk s cl0 s' : vlen (q_lb s) = q_n s -> has_bound cl0 ->
  level0 Qpmad dbg jk s cl0 = Some s' -> vlen (q_lb s') = q_n s'.
Proof.
  intros I HB H. destruct cl0 as [|wc l]; [destruct HB as (? & ? & [] & _)|]. cbn [level0] in H.
  destruct (ccols (snd wc)) as [n|]; [cbn [obind] in H|discriminate].
  destruct (counts Qpmad n (wc :: l)) as [q|] eqn:C; [cbn [obind] in H|discriminate].
  apply counts_spec in C as [_ ->]. apply bound_in_spec in HB. cbn beta iota in H. rewrite HB in H.
  match type of H with obind ?r _ = _ => destruct r as [u|] eqn:E; [cbn [obind] in H|discriminate] end.
  destruct (ofold (fill Qpmad) (wc :: l) (reset_bounds Qpmad u, 0, 0)) as [[[v a1] b1]|] eqn:G; [cbn [obind] in H|discriminate].
  injection H as <-. apply fills_dims in G as [G _]. rewrite reset_dims in G. unfold dims in G.
  injection G as -> _ _ _ _ _ _ _ _ _ _ _ _ -> _. cbn [resize] in E. injection E as <-.
  cbn [q_lb q_n note_bounds w_bnd q_hasb]. destruct (n =? q_n s) eqn:En; cbn [negb andb]; [|reflexivity].
  apply Nat.eqb_eq in En. congruence.
Qed.
Lemma prepare_lb dbg jk s P flag s' : vlen (q_lb s) = q_n s -> boxed P ->
  after (prepare Qpmad dbg jk s P flag) = Some s' -> vlen (q_lb s') = q_n s'.
Proof.
  intros I (cl0 & r & -> & HB) H. cbn [prepare] in H. destruct (2 <? _); [injection H as <-; exact I|].
  destruct (level0 Qpmad dbg jk s cl0) as [s1|] eqn:E; [|discriminate]. apply level0_lb in E; auto.
  destruct r as [|cl1 r]; [injection H as <-; exact E|].
  pose proof (level1_dims Qpmad flag s1 cl1) as D. destruct (level1 Qpmad flag s1 cl1) as [u []|u|]; try discriminate;
    injection H as <-; destruct D as [D _]; unfold dims in D; injection D as -> _ _ _ _ _ _ _ _ _ _ _ _ -> _; exact E.
Qed.
Lemma boxed_lb dbg jk hb st s : reach (sstep Qpmad dbg) (boxed_op Qpmad) (solver_new Qpmad jk hb st) s -> vlen (q_lb s) = q_n s.
Proof.
  apply (reach_inv (sstep Qpmad dbg) (boxed_op Qpmad) (fun s => vlen (q_lb s) = q_n s)); [reflexivity|]. intros s1 o s2 I B A. destruct o as [n neq nin j|P flag j|P j ans x]; cbn [boxed_op sstep retrieve] in *.
  - destruct B.
  - apply (prepare_lb dbg j s1 P flag s2 I B). destruct (prepare Qpmad dbg j s1 P flag) as [u []|u|]; exact A.
  - unfold solve in A. destruct (prepare Qpmad dbg j s1 P (default_flag Qpmad)) as [u []|u|] eqn:E; try discriminate.
    + injection A as <-. cbn [w_out q_lb q_n]. eapply prepare_lb; [exact I|exact B|]. rewrite E. reflexivity.
    + eapply prepare_lb; [exact I|exact B|]. rewrite E. exact A.
Qed.
(** The problem can be given to this solver object: rt needs its sizes; qpmad needs
    that the problem has no bounds or that all the problems before had some. *)
Definition usable b dbg n P s : Prop :=
  solver_state b dbg s /\ fits b n P /\
  (b = Qpmad -> boxed P -> exists jk hb st, reach (sstep Qpmad dbg) (boxed_op Qpmad) (solver_new Qpmad jk hb st) s).
Lemma usable_ready b dbg n cl0 r s : usable b dbg n (cl0 :: r) s -> bounds_ready b n s cl0.
Proof.
  intros (_ & _ & H) E HB. destruct (H E) as (jk & hb & st & Hr); [exists cl0, r; auto|].
  apply boxed_lb in Hr. destruct (Nat.eq_dec (q_n s) n); [right; congruence|left; assumption].
Qed.
Theorem accept b dbg jk s n P ans x : usable b dbg n P s -> pwf n P ->
  exists s' r, solve b dbg jk s P ans x = Ret s' r.
Proof.
  intros U W. assert (U' := U). destruct U as (S & F & _). apply state_sized in S.
  destruct (prepare_ok b dbg jk s n P (default_flag b) S W F) as (s' & E & _).
  { destruct W as (cl0 & cl1 & -> & _). cbn [nth_error]. intros c0 H0; injection H0 as <-. eapply usable_ready; exact U'. }
  unfold solve. rewrite E. eexists; eexists; reflexivity.
Qed.
Theorem reject_cost b dbg jk s n (cl0 cl1 : level K) ans x : usable b dbg n [cl0; cl1] s ->
  cl0 <> [] -> lwf n cl0 -> lwf n cl1 -> (exists w c, In (w, c) cl1 /\ c_kind c <> CEq) ->
  exists s', solve b dbg jk s [cl0; cl1] ans x = Exc s'.
Proof.
  intros U Hne W0 W1 Hk. assert (U' := U). destruct U as (S & F & _). apply state_sized in S.
  destruct (prepare_throw b dbg jk s n cl0 cl1 (default_flag b) S Hne W0 W1 Hk F) as (s' & E).
  { eapply usable_ready; exact U'. }
  exists s'. apply solve_exc. exact E.
Qed.
End Gen.

Section Reals.
Implicit Types (s : sst Rnum) (P : hqpdata Rnum).
(** C21, C24 *)
Theorem solve_feasible b dbg jk s cl0 r ans x0 s' res : solver_state b dbg s -> fits b (q_n s') (cl0 :: r) ->
  solve b dbg jk s (cl0 :: r) ans x0 = Ret s' res -> forall x,
  qp_feasible b s' x <-> hard_ok cl0 x /\ qpmad_box b cl0 (q_n s') x.
Proof.
  intros S F H x. apply state_sized in S. apply solve_prepare in H as (s1 & E & -> & _).
  rewrite <- (prepare_feasible b dbg jk s cl0 r _ s1 x S F E). destruct b; reflexivity.
Qed.
Theorem same_feasible b1 b2 dbg1 dbg2 jk1 jk2 s1 s2 cl0 r1 r2 a1 a2 x1 x2 s1' s2' e1 e2 :
  solver_state b1 dbg1 s1 -> solver_state b2 dbg2 s2 ->
  fits b1 (q_n s1') (cl0 :: r1) -> fits b2 (q_n s2') (cl0 :: r2) ->
  (b1 = Qpmad \/ b2 = Qpmad -> ~ has_bound cl0) ->
  solve b1 dbg1 jk1 s1 (cl0 :: r1) a1 x1 = Ret s1' e1 -> solve b2 dbg2 jk2 s2 (cl0 :: r2) a2 x2 = Ret s2' e2 ->
  forall x, qp_feasible b1 s1' x <-> qp_feasible b2 s2' x.
Proof.
  intros S1 S2 F1 F2 N H1 H2 x.
  rewrite (solve_feasible _ _ _ _ _ _ _ _ _ _ S1 F1 H1 x), (solve_feasible _ _ _ _ _ _ _ _ _ _ S2 F2 H2 x).
  unfold qpmad_box. intuition congruence.
Qed.
(** Documented regularisation of each back-end when solve is called. *)
Definition solve_reg (b : backend) : R := match b with Prox | Osqp => 0%R | _ => (/ 100000000)%R end.
Lemma solve_reg_used b : reg_used b (default_flag b) = solve_reg b.
Proof. destruct b; cbn; try reflexivity; unfold Q2R; cbn; lra. Qed.
(** C22 *)
Theorem solve_cost b dbg jk s cl0 cl1 ans x0 s' res : solver_state b dbg s ->
  solve b dbg jk s [cl0; cl1] ans x0 = Ret s' res ->
  exists k : R, forall x, qp_cost s' x = (least_squares (solve_reg b) (q_n s') cl1 x + k)%R.
Proof.
  intros S H. apply state_sized in S. apply solve_prepare in H as (s1 & E & -> & _).
  exists (- (/ 2 * lsum offset cl1))%R. intros x. rewrite <- solve_reg_used.
  destruct (prepare_cost b dbg jk s cl0 cl1 _ s1 x S E) as (C & _ & _).
  change (qp_cost (w_out s1 (new_x b (q_x s1) x0 ans) (new_status b (q_status s1) ans)) x) with (qp_cost s1 x).
  rewrite C. reflexivity.
Qed.
Theorem solve_minimisers b dbg jk s cl0 cl1 ans x0 s' res : solver_state b dbg s ->
  solve b dbg jk s [cl0; cl1] ans x0 = Ret s' res -> forall (F : (nat -> R) -> Prop) x,
  (forall z, F z -> (qp_cost s' x <= qp_cost s' z)%R) <->
  (forall z, F z -> (least_squares (solve_reg b) (q_n s') cl1 x <= least_squares (solve_reg b) (q_n s') cl1 z)%R).
Proof.
  intros S H F x. destruct (solve_cost _ _ _ _ _ _ _ _ _ _ S H) as [k C].
  split; intros Z z Fz; specialize (Z z Fz); rewrite !C in *; lra.
Qed.
(** C23 *)
Definition regularised b : Prop := b <> Prox /\ b <> Osqp.
Theorem solve_convex b dbg jk s cl0 cl1 ans x0 s' res : solver_state b dbg s ->
  solve b dbg jk s [cl0; cl1] ans x0 = Ret s' res -> (forall w c, In (w, c) cl1 -> (0 <= w)%R) ->
  (forall i j, mget (q_H s') i j = mget (q_H s') j i) /\
  (forall x, (solve_reg b * sqnorm (q_n s') x <= @nsum Rnum (mrows (q_H s')) (fun i => x i * qrow (q_H s') x i))%R).
Proof.
  intros S H W. apply state_sized in S. apply solve_prepare in H as (s1 & E & -> & _). split.
  - destruct (prepare_cost b dbg jk s cl0 cl1 _ s1 (fun _ => 0%R) S E) as (_ & _ & Y). exact Y.
  - intros x. destruct (prepare_cost b dbg jk s cl0 cl1 _ s1 x S E) as (_ & Q & _).
    change (solve_reg b * sqnorm (q_n s1) x <= quad (q_H s1) x)%R. rewrite Q, solve_reg_used. apply quad_lower. exact W.
Qed.
Theorem solve_unique b dbg jk s cl0 cl1 ans x0 s' res : regularised b -> solver_state b dbg s ->
  fits b (q_n s') [cl0; cl1] ->
  solve b dbg jk s [cl0; cl1] ans x0 = Ret s' res -> (forall w c, In (w, c) cl1 -> (0 <= w)%R) ->
  forall x y, qp_feasible b s' x -> qp_feasible b s' y ->
  (forall z, qp_feasible b s' z -> (qp_cost s' x <= qp_cost s' z)%R) ->
  (forall z, qp_feasible b s' z -> (qp_cost s' y <= qp_cost s' z)%R) ->
  forall i, i < q_n s' -> x i = y i.
Proof.
  intros [B1 B2] S F H W x y Fx Fy Mx My. pose proof (solve_feasible _ _ _ _ _ _ _ _ _ _ S F H) as G.
  destruct (solve_convex _ _ _ _ _ _ _ _ _ _ S H W) as [_ Q].
  apply (unique_min s' (qp_feasible b s') (solve_reg b)); auto.
  - destruct b; cbn; try congruence; lra.
  - intros u v Fu Fv. rewrite G in *. destruct Fu, Fv. split; [apply hard_mid|apply box_mid]; assumption.
Qed.
End Reals.

(** C21 and C24 in the form of the property file. *)
Theorem one_sided b dbg jk (s : sst Rnum) cl0 r ans x0 s' res :
  match b with Eiq | Fast | Rt _ _ _ => True | _ => False end ->
  solver_state b dbg s -> fits b (q_n s') (cl0 :: r) ->
  solve b dbg jk s (cl0 :: r) ans x0 = Ret s' res -> forall x,
  (forall k, k < mrows (q_CE s') -> (qrow (q_CE s') x k + vget (q_ce0 s') k = 0)%R) /\
  (forall k, k < mrows (q_CI s') -> (0 <= qrow (q_CI s') x k + vget (q_cil s') k)%R)
  <-> hard_ok cl0 x.
Proof.
  intros B S F H x. pose proof (solve_feasible _ _ _ _ _ _ _ _ _ _ S F H x) as G.
  assert (Q : b <> Qpmad) by (intros ->; exact B).
  assert (G' : qp_feasible b s' x <-> hard_ok cl0 x) by (rewrite G; unfold qpmad_box; intuition congruence).
  destruct b; try contradiction; exact G'.
Qed.
Theorem feasible_set b dbg jk (s : sst Rnum) cl0 r ans x0 s' res : solver_state b dbg s ->
  fits b (q_n s') (cl0 :: r) -> (b = Qpmad -> ~ has_bound cl0) ->
  solve b dbg jk s (cl0 :: r) ans x0 = Ret s' res -> forall x, qp_feasible b s' x <-> hard_ok cl0 x.
Proof.
  intros S F B H x. rewrite (solve_feasible _ _ _ _ _ _ _ _ _ _ S F H x). unfold qpmad_box.
  split; [intros [Z _]; exact Z|]. intros Z. split; [exact Z|]. intros E HB. destruct (B E HB).
Qed.
(** The limits of the C++ type double. *)
Definition smallest : R := (/ IZR (2 ^ 1022))%R.
Definition largest : R := IZR ((2 ^ 53 - 1) * 2 ^ 971).
Lemma dbl_min_value : @dbl_min Rnum = smallest.
Proof.
  unfold dbl_min, smallest. change (Q2R (Qpower 2 (-1022)) = / IZR (2 ^ 1022))%R.
  rewrite (Qeq_eqR _ (1 # Z.to_pos (2 ^ 1022))) by (vm_compute; reflexivity). unfold Q2R. cbn [Qnum Qden].
  replace (Z.pos (Z.to_pos (2 ^ 1022))) with (2 ^ 1022)%Z by (vm_compute; reflexivity). apply Rmult_1_l.
Qed.
Lemma dbl_max_value : @dbl_max Rnum = largest.
Proof.
  unfold dbl_max, largest. change (Q2R ((2 - Qpower 2 (-52)) * Qpower 2 1023) = IZR ((2 ^ 53 - 1) * 2 ^ 971))%R.
  rewrite (Qeq_eqR _ (inject_Z ((2 ^ 53 - 1) * 2 ^ 971))) by (vm_compute; reflexivity). unfold Q2R, inject_Z. cbn [Qnum Qden].
  rewrite Rinv_1. apply Rmult_1_r.
Qed.
Theorem qpmad_bounds dbg jk (s : sst Rnum) cl0 r ans x0 s' res : solver_state Qpmad dbg s -> has_bound cl0 ->
  solve Qpmad dbg jk s (cl0 :: r) ans x0 = Ret s' res -> forall x,
  qp_feasible Qpmad s' x <-> hard_ok cl0 x /\ forall k, k < q_n s' -> (smallest <= x k <= largest)%R.
Proof.
  rewrite <- dbl_min_value, <- dbl_max_value. intros S HB H x. rewrite (solve_feasible Qpmad _ _ _ _ _ _ _ _ _ S I H x). unfold qpmad_box. intuition.
Qed.
