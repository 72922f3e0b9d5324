(** What a solver's output holds besides x and the status: multipliers, active set, iterations,
    status names (C85), what multipliers say about the user's problem (C86), the objective
    value (C87), the messages of a debug build (C88). *)
From Coq Require Import String List Arith Bool ZArith QArith Reals Qreals Lia Lra.
From Verif Require Import Scalar Outcome Linalg Constraint FormPhysSpec RSum Solvers SolverSpec SolverSizes SolverHist SolverSem SolverCost SolverMain SolverRefute.
From Verif Require Import Check SolverReport SolverOutput SolverKept SolverRows SolverOutputR.
Import ListNotations.
Open Scope list_scope.
Open Scope nat_scope.

(** ** C85 *)
Theorem C85_fields : forall (K : num) (inf : K) b dbg jk ji o P a o' r, osolve inf b dbg jk ji o P a = Ret o' r -> optimum b (acode inf b a) ->
  match b with
  | Fast | Rt _ _ _ =>
      o_lam o' = a_lam a /\ o_it o' = a_it a /\
      q_neq (o_s o') <= a_q a <= List.length (a_act a) /\ List.length (o_act o') = a_q a - q_neq (o_s o') /\
      forall k, k < a_q a - q_neq (o_s o') -> nth k (o_act o') 0%Z = nth (q_neq (o_s o') + k) (a_act a) 0%Z
  | Prox => o_lam o' = a_lam a /\ o_it o' = a_it a
  | Osqp => o_lam o' = a_lam a
  | Eiq | Qpmad => True
  end.
Proof. exact @optimal_fields. Qed.
Print Assumptions C85_fields.
Theorem C85_active_set_undefined : forall (K : num) (inf : K) b dbg jk ji o P a s1 r,
  solve b dbg jk (o_s o) P (acode inf b a) (a_x a) = Ret s1 r ->
  match b with Fast | Rt _ _ _ => True | _ => False end -> optimum b (acode inf b a) ->
  (a_q a < q_neq s1 \/ List.length (a_act a) < a_q a) -> osolve inf b dbg jk ji o P a = Undef.
Proof. exact @segment_undefined. Qed.
Print Assumptions C85_active_set_undefined.
Theorem C85_stale : forall (K : num) (inf : K) b dbg jk ji o P a o' r, osolve inf b dbg jk ji o P a = Ret o' r -> ~ optimum b (acode inf b a) ->
  (b = Fast -> q_n (o_s o') = q_n (o_s o) /\ q_neq (o_s o') = q_neq (o_s o) /\ q_nin (o_s o') = q_nin (o_s o)) ->
  o_lam o' = o_lam o /\ o_act o' = o_act o /\ o_it o' = o_it o.
Proof. exact @stale_fields. Qed.
Print Assumptions C85_stale.
(** x after an answer that is not an optimum. *)
Theorem C85_unsolved_x : forall (K : num) b dbg jk (s : sst K) P ans x s' t y, solve b dbg jk s P ans x = Ret s' (t, y) -> ~ optimum b ans ->
  match b with Prox | Osqp => q_n s' = q_n s -> y = q_x s | _ => y = x end.
Proof. exact (fun K b => @unsolved_x K b). Qed.
Print Assumptions C85_unsolved_x.
Theorem C85_rt_sizes : forall (K : num) (inf : K) nv ne ni dbg jk ji hb st it0 ob0 o,
  reach (ostep inf (Rt nv ne ni) dbg)
    (fun _ c => match c with OSolve _ P jk ji a => ~ optimum (Rt nv ne ni) (acode inf (Rt nv ne ni) a) | _ => True end)
    (out_new (Rt nv ne ni) jk ji hb st it0 ob0) o ->
  vlen (o_lam o) = ne + 2 * ni /\ List.length (o_act o) = 2 * ni /\ o_it o = it0.
Proof. exact @rt_sizes. Qed.
Print Assumptions C85_rt_sizes.
Theorem C85_resized : forall (K : num) (inf : K) dbg jk ji o P a o' r, osolve inf Fast dbg jk ji o P a = Ret o' r -> ~ optimum Fast (acode inf Fast a) ->
  ~ (q_n (o_s o') = q_n (o_s o) /\ q_neq (o_s o') = q_neq (o_s o) /\ q_nin (o_s o') = q_nin (o_s o)) ->
  vlen (o_lam o') = q_neq (o_s o') + 2 * q_nin (o_s o') /\ List.length (o_act o') = 2 * q_nin (o_s o') /\
  o_it o' = o_it o /\
  (vlen (o_lam o) <> vlen (o_lam o') -> forall k, k < vlen (o_lam o') -> vget (o_lam o') k = jk 10 k 0) /\
  (List.length (o_act o) <> List.length (o_act o') -> forall k, k < List.length (o_act o') -> nth k (o_act o') 0%Z = ji k).
Proof. exact @resized_fields. Qed.
Print Assumptions C85_resized.
Theorem C85_never_written : forall (K : num) (inf : K) b dbg jk ji hb st it0 ob0 o,
  reach (ostep inf b dbg) (fun _ _ => True) (out_new b jk ji hb st it0 ob0) o ->
  match b with
  | Eiq | Qpmad => vlen (o_lam o) = 0 /\ o_act o = [] /\ o_it o = it0
  | Prox => o_act o = []
  | Osqp => o_act o = [] /\ o_it o = it0
  | _ => True
  end.
Proof. exact @never_written. Qed.
Print Assumptions C85_never_written.
Theorem C85_current_refuted : forall b dbg, b = Fast \/ b = Rt 2 1 1 \/ b = Prox \/ b = Osqp ->
  ~ (forall o jk ji P a o' r, out_state (K:=Qnum) 1%Q b dbg o -> osolve (K:=Qnum) 1%Q b dbg jk ji o P a = Ret o' r ->
       forall k, k < vlen (o_lam o') -> vget (o_lam o') k = vget (a_lam a) k).
Proof. exact stale_multipliers. Qed.
Print Assumptions C85_current_refuted.
Theorem C85_status_names : forall t, match status_name t with
  | Some x => t <> St_unknown /\ x = match t with
      | St_unknown => "HQP_STATUS_UNKNOWN" | St_optimal => "HQP_STATUS_OPTIMAL" | St_infeasible => "HQP_STATUS_INFEASIBLE"
      | St_unbounded => "HQP_STATUS_UNBOUNDED" | St_max_iter => "HQP_STATUS_MAX_ITER_REACHED" | St_error => "HQP_STATUS_ERROR" end%string
  | None => t = St_unknown
  end.
Proof. exact status_names. Qed.
Print Assumptions C85_status_names.
(** The theorems of Prop_Solvers.v about x and the status hold for these objects too. *)
Theorem C85_refines : forall (K : num) (inf : K) b dbg o, out_state inf b dbg o -> solver_state b dbg (o_s o) /\
  forall jk ji P a o' r, osolve inf b dbg jk ji o P a = Ret o' r ->
    solve b dbg jk (o_s o) P (acode inf b a) (a_x a) = Ret (o_s o') r.
Proof. exact (fun K inf b dbg o S => conj (out_solver inf b dbg o S) (fun jk ji P a o' r H => proj1 (osolve_base inf b dbg jk ji o P a o' r H))). Qed.
Print Assumptions C85_refines.
(** An optimal solve then one without solution, with the four back-ends that store multipliers. *)
Example C85_case : forall b dbg, stores_multipliers b -> then_bad b dbg = Some (1, 7%Q, St_infeasible).
Proof. exact then_bad_value. Qed.
(** With 1 equality row, an active set of size 0 makes the same solve undefined. *)
Example C85_case_undefined : osolve (K:=Qnum) 1%Q Fast true jk0 (fun _ => 0%Z) (fresh0 Fast) demo
  (mkAns (K:=Qnum) Fast F_optimal (vzero 2) lam1 [] 0 3%Z 0%Q) = Undef.
Proof. vm_compute. reflexivity. Qed.
(** A size change: the second problem has an additional bound of two rows. *)
Example C85_case_resized :
  match run (ostep (K:=Qnum) 1%Q Fast true) (fresh0 Fast) (calls Fast) with
  | Some o => match osolve (K:=Qnum) 1%Q Fast true (fun _ k _ => inject_Z (Z.of_nat k)) (fun k => Z.of_nat (5 + k)) o demo_box (answer1 Fast F_infeasible lam2) with
              | Ret o' (t, _) => (vlen (o_lam o'), vget (o_lam o') 3, o_act o', o_it o') = (7, 3%Q, [5; 6; 7; 8; 9; 10]%Z, 3%Z)
              | _ => False
              end
  | None => False
  end.
Proof. vm_compute. reflexivity. Qed.

(** ** C86 *)
Theorem C86_rows : forall b dbg jk s n P ans x0 s' res, usable b dbg n P s -> pwf n P ->
  solve b dbg jk s P ans x0 = Ret s' res -> forall cl0, nth_error P 0 = Some cl0 ->
  (match b with Eiq | Fast | Rt _ _ _ | Prox => mrows (q_CE s') = length (eq_lines b cl0) | _ => True end) /\
  mrows (q_CI s') = length (in_lines b cl0) /\ listed cl0 (ce_row b s') (eq_lines b cl0) /\ listed cl0 (ci_row b s') (in_lines b cl0).
Proof. exact solve_rows. Qed.
Print Assumptions C86_rows.
Theorem C86_multipliers : forall b dbg jk s n cl0 cl1 ans x0 s' res x u z, b <> Qpmad ->
  usable b dbg n [cl0; cl1] s -> pwf n [cl0; cl1] -> solve b dbg jk s [cl0; cl1] ans x0 = Ret s' res ->
  multipliers b s' x u z <->
  priced_slope b n cl0 cl1 x u z /\ listed cl0 (fun k c i d => reached c x i d (z k)) (in_lines b cl0).
Proof. exact multipliers_iff. Qed.
Print Assumptions C86_multipliers.
Theorem C86_optimal : forall b dbg jk s n cl0 cl1 ans x0 s' res x u z,
  usable b dbg n [cl0; cl1] s -> pwf n [cl0; cl1] -> solve b dbg jk s [cl0; cl1] ans x0 = Ret s' res ->
  (forall w c, In (w, c) cl1 -> (0 <= w)%R) -> hard_ok cl0 x -> multipliers b s' x u z ->
  forall y, hard_ok cl0 y -> (least_squares (solve_reg b) n cl1 x <= least_squares (solve_reg b) n cl1 y)%R.
Proof. exact multipliers_optimal. Qed.
Print Assumptions C86_optimal.
Example C86_case : forall dbg ans x0,
  exists s' r, solve Fast dbg zero_jk (solver_new (K:=Rnum) Fast zero_jk false St_unknown) (@demo Rnum) ans x0 = Ret s' r /\
    multipliers Fast s' (pt 2 (-1)) demo_u demo_z.
Proof. exact (fun dbg ans x0 => demo_multipliers dbg _ ans x0 (new_state Fast dbg zero_jk false St_unknown)). Qed.
Example C86_case_rows : eq_lines Fast hard = [(0, 0, Exact)] /\ in_lines Fast hard_box =
  [(1, 0, Lower); (1, 0, Upper); (2, 0, Lower); (2, 1, Lower); (2, 0, Upper); (2, 1, Upper)] /\
  in_lines Prox hard_box = [(1, 0, Range); (2, 0, Range); (2, 1, Range)] /\
  in_lines Osqp hard_box = [(0, 0, Exact); (1, 0, Range); (2, 0, Range); (2, 1, Range)] /\
  in_lines Qpmad hard_box = [(0, 0, Exact); (1, 0, Range)].
Proof. repeat split. Qed.

(** ** C87 *)
Theorem C87_objective : forall (inf : R) b dbg jk ji (o : ostate Rnum) cl0 cl1 a o' r,
  b <> Qpmad -> out_state inf b dbg o -> osolve (K:=Rnum) inf b dbg jk ji o [cl0; cl1] a = Ret o' r ->
  a_obj a = qp_cost (o_s o') (vget (a_x a)) ->
  objective_value (K:=Rnum) inf b o' = (least_squares (solve_reg b) (q_n (o_s o')) cl1 (vget (a_x a)) - cost_at_rest cl1)%R.
Proof. exact objective_cost. Qed.
Print Assumptions C87_objective.
Theorem C87_last : forall (K : num) (inf : K) b dbg jk ji o P a o' r, osolve inf b dbg jk ji o P a = Ret o' r ->
  objective_value inf b o' = match b with Qpmad => inf | _ => a_obj a end.
Proof. exact @objective_last. Qed.
Print Assumptions C87_last.
Theorem C87_eiquadprog_status : forall (K : num) (inf : K) dbg jk ji o P a o' t x, osolve inf Eiq dbg jk ji o P a = Ret o' (t, x) ->
  (t = St_infeasible <-> neqb (objective_value inf Eiq o') inf = true) /\ (t = St_optimal <-> neqb (objective_value inf Eiq o') inf = false).
Proof. exact @eiq_status. Qed.
Print Assumptions C87_eiquadprog_status.
Theorem C87_cost_refuted : forall dbg, ~ (forall jk ji (o : ostate Rnum) cl0 cl1 a o' r, out_state 0%R Prox dbg o ->
    osolve (K:=Rnum) 0%R Prox dbg jk ji o [cl0; cl1] a = Ret o' r -> a_obj a = qp_cost (o_s o') (vget (a_x a)) ->
    objective_value (K:=Rnum) 0%R Prox o' = least_squares (solve_reg Prox) (q_n (o_s o')) cl1 (vget (a_x a))).
Proof. exact objective_not_cost. Qed.
Print Assumptions C87_cost_refuted.
Example C87_case : forall dbg jk ji x l,
  exists a o' r, osolve (K:=Rnum) 0%R Prox dbg jk ji (fresh_out Prox) (@demo Rnum) a = Ret o' r /\ a_x a = x /\ a_lam a = l /\
    a_obj a = qp_cost (o_s o') (vget (a_x a)) /\ q_n (o_s o') = 2 /\
    objective_value (K:=Rnum) 0%R Prox o' = (least_squares 0 2 soft (vget x) - 9)%R.
Proof. exact (fun dbg jk ji x l => objective_demo dbg jk ji _ x l (fresh_out_state _ _ _)). Qed.

(** ** C88 *)
Theorem C88_messages : forall b n cl0 P (ans : code b) (x : vec Rnum), lwf n cl0 -> vlen x = n -> optimum b ans ->
  exists ms, printed sqrt b true (cl0 :: P) ans x = Some ms /\ reports (vget x) cl0 ms.
Proof. exact printed_spec. Qed.
Print Assumptions C88_messages.
Theorem C88_silent : forall b n cl0 P (ans : code b) (x : vec Rnum), lwf n cl0 -> vlen x = n -> optimum b ans ->
  printed sqrt b true (cl0 :: P) ans x = Some [] <-> forall w c, In (w, c) cl0 -> within c (vget x) (/ 1000000).
Proof. exact printed_silent. Qed.
Print Assumptions C88_silent.
Theorem C88_no_false_alarm : forall b dbg n cl0 P (ans : code b) (x : vec Rnum), lwf n cl0 -> vlen x = n -> hard_ok cl0 (vget x) ->
  printed sqrt b dbg (cl0 :: P) ans x = Some [].
Proof. exact printed_exact. Qed.
Print Assumptions C88_no_false_alarm.
Theorem C88_otherwise_quiet : forall b dbg cl0 P (ans : code b) (x : vec Rnum), dbg = false \/ ~ optimum b ans ->
  printed sqrt b dbg (cl0 :: P) ans x = Some [].
Proof. exact printed_quiet. Qed.
Print Assumptions C88_otherwise_quiet.
Example C88_case : exists m1 m2, printed sqrt Fast true (@demo Rnum) F_optimal (mkVec (K:=Rnum) 2 (pt 5 0)) = Some [m1; m2] /\
  m_name m1 = "sum"%string /\ m_name m2 = "diff"%string /\ m_lo m2 = 6%R /\ m_up m2 = (-2)%R.
Proof. exact demo_messages. Qed.
Example C88_case_quiet : forall dbg opt, messages sqrt dbg opt (@hard Rnum) (mkVec (K:=Rnum) 2 (pt 2 (-1))) = Some [].
Proof. exact demo_quiet. Qed.
