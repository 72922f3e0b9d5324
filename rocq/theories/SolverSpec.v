(** Specification of the solvers, independent of how the QP data are assembled. *)
From Coq Require Import List Arith Bool Reals.
From Verif Require Import Scalar Outcome Linalg Constraint FormPhysSpec Solvers.
Import ListNotations.
Open Scope nat_scope.

(** A constraint over [n] variables whose sizes fit together. *)
Definition cwf {K : num} (n : nat) (c : constr K) : Prop :=
  match c_kind c with
  | CEq => mcols (c_mat c) = n /\ vlen (c_vec c) = mrows (c_mat c)
  | CIneq => mcols (c_mat c) = n /\ vlen (c_lb c) = mrows (c_mat c) /\ vlen (c_ub c) = mrows (c_mat c)
  | CBound => vlen (c_lb c) = n /\ vlen (c_ub c) = n
  end.
Definition lwf {K : num} (n : nat) (l : level K) : Prop := forall w c, In (w, c) l -> cwf n c.

(** Number of rows of the constraints of a level that are equalities, inequalities,
    bounds. *)
Definition rows_if {K : num} (p : ckind -> bool) (l : level K) : nat :=
  fold_right (fun wc n =>
    (if p (c_kind (snd wc)) then match c_kind (snd wc) with CBound => vlen (c_lb (snd wc)) | _ => mrows (c_mat (snd wc)) end
     else 0) + n) 0 l.
Definition is_eq k := match k with CEq => true | _ => false end.
Definition is_in k := match k with CEq => false | _ => true end.
Definition is_ineq k := match k with CIneq => true | _ => false end.
Definition has_bound {K : num} (l : level K) : Prop := exists w c, In (w, c) l /\ c_kind c = CBound.

(** Two-level problem in [n] variables: a non-empty level 0 and a cost made of
    equalities. *)
Definition pwf {K : num} (n : nat) (P : hqpdata K) : Prop :=
  exists cl0 cl1, P = [cl0; cl1] /\ cl0 <> [] /\ lwf n cl0 /\ lwf n cl1 /\
    forall w c, In (w, c) cl1 -> c_kind c = CEq.
(** The problem has the sizes SolverHQuadProgRT was instantiated with. *)
Definition fits {K : num} (b : backend) (n : nat) (P : hqpdata K) : Prop :=
  match b, P with
  | Rt nv ne ni, cl0 :: _ => n = nv /\ rows_if is_eq cl0 = ne /\ rows_if is_in cl0 = ni
  | _, _ => True
  end.

(** [x] satisfies every constraint of level 0. *)
Definition hard_ok (cl0 : level Rnum) (x : nat -> R) : Prop := forall w c, In (w, c) cl0 -> sat c x.

(** The constraints of the QP handed to the external solver, as documented at
    eiq:219-222, fast:161-164, rt:144-147, prox:169-172 (proxsuite: CE x = ce0,
    ci_lb <= CI x <= ci_ub), osqp:183-185, qpmad:140-143 (bounds only if
    m_has_bounds, qpmad:147-153). *)
Definition qrow (M : mat Rnum) (x : nat -> R) (k : nat) : R :=
  @nsum Rnum (mcols M) (fun j => mget M k j * x j)%R.
Definition two_sided (M : mat Rnum) (l u : vec Rnum) (x : nat -> R) : Prop :=
  forall k, k < mrows M -> (vget l k <= qrow M x k <= vget u k)%R.
Definition qp_feasible (b : backend) (s : sst Rnum) (x : nat -> R) : Prop :=
  match b with
  | Eiq | Fast | Rt _ _ _ =>
      (forall k, k < mrows (q_CE s) -> (qrow (q_CE s) x k + vget (q_ce0 s) k = 0)%R) /\
      (forall k, k < mrows (q_CI s) -> (0 <= qrow (q_CI s) x k + vget (q_cil s) k)%R)
  | Prox =>
      (forall k, k < mrows (q_CE s) -> qrow (q_CE s) x k = vget (q_ce0 s) k) /\
      two_sided (q_CI s) (q_cil s) (q_ciu s) x
  | Osqp => two_sided (q_CI s) (q_cil s) (q_ciu s) x
  | Qpmad =>
      two_sided (q_CI s) (q_cil s) (q_ciu s) x /\
      (q_hasb s = true -> forall k, k < q_n s -> (vget (q_lb s) k <= x k <= vget (q_ub s) k)%R)
  end.

(** Objective 1/2 x'Hx + g'x of the QP, and the weighted least-squares cost of the
    tasks of level 1. *)
Definition qp_cost (s : sst Rnum) (x : nat -> R) : R :=
  (/ 2 * @nsum Rnum (mrows (q_H s)) (fun i => x i * qrow (q_H s) x i)
   + @nsum Rnum (vlen (q_g s)) (fun i => vget (q_g s) i * x i))%R.
Definition residual (c : constr Rnum) (x : nat -> R) (k : nat) : R := (qrow (c_mat c) x k - vget (c_vec c) k)%R.
Definition sqnorm (n : nat) (x : nat -> R) : R := @nsum Rnum n (fun i => x i * x i)%R.
Definition task_cost (wc : R * constr Rnum) (x : nat -> R) : R :=
  (fst wc * sqnorm (mrows (c_mat (snd wc))) (residual (snd wc) x))%R.
Definition least_squares (r : R) (n : nat) (cl1 : level Rnum) (x : nat -> R) : R :=
  (/ 2 * (lsum (fun wc => task_cost wc x) cl1 + r * sqnorm n x))%R.

(** Everything that is handed to the external solver is the same. *)
Definition same_qp {K : num} (b : backend) (s1 s2 : sst K) : Prop :=
  meq (q_H s1) (q_H s2) /\ veq (q_g s1) (q_g s2) /\
  match b with
  | Eiq | Fast | Rt _ _ _ => meq (q_CE s1) (q_CE s2) /\ veq (q_ce0 s1) (q_ce0 s2) /\
                             meq (q_CI s1) (q_CI s2) /\ veq (q_cil s1) (q_cil s2)
  | Prox => meq (q_CE s1) (q_CE s2) /\ veq (q_ce0 s1) (q_ce0 s2) /\
            meq (q_CI s1) (q_CI s2) /\ veq (q_cil s1) (q_cil s2) /\ veq (q_ciu s1) (q_ciu s2)
  | Osqp => meq (q_CI s1) (q_CI s2) /\ veq (q_cil s1) (q_cil s2) /\ veq (q_ciu s1) (q_ciu s2)
  | Qpmad => meq (q_CI s1) (q_CI s2) /\ veq (q_cil s1) (q_cil s2) /\ veq (q_ciu s1) (q_ciu s2) /\
             q_hasb s1 = q_hasb s2 /\
             (q_hasb s1 = true -> veq (q_lb s1) (q_lb s2) /\ veq (q_ub s1) (q_ub s2))
  end.

(** Sizes of the members, as every call leaves them. *)
Definition sized {K : num} (b : backend) (s : sst K) : Prop :=
  mrows (q_H s) = q_n s /\ mcols (q_H s) = q_n s /\ vlen (q_g s) = q_n s /\
  mcols (q_CI s) = q_n s /\
  match b with
  | Eiq | Fast | Rt _ _ _ =>
      mcols (q_CE s) = q_n s /\ mrows (q_CE s) = q_neq s /\ vlen (q_ce0 s) = q_neq s /\
      mrows (q_CI s) = 2 * q_nin s /\ vlen (q_cil s) = 2 * q_nin s
  | Prox =>
      mcols (q_CE s) = q_n s /\ mrows (q_CE s) = q_neq s /\ vlen (q_ce0 s) = q_neq s /\
      mrows (q_CI s) = q_nin s /\ vlen (q_cil s) = q_nin s /\ vlen (q_ciu s) = q_nin s
  | Osqp => mrows (q_CI s) = q_nin s + q_neq s /\ vlen (q_cil s) = q_nin s + q_neq s /\ vlen (q_ciu s) = q_nin s + q_neq s
  | Qpmad => mrows (q_CI s) = q_neq s /\ vlen (q_cil s) = q_neq s /\ vlen (q_ciu s) = q_neq s /\
             vlen (q_lb s) = vlen (q_ub s)
  end /\
  match b with Rt nv ne ni => q_n s = nv /\ q_neq s = ne /\ q_nin s = ni | _ => True end.

(** Results of the external solver that solve looks at. *)
Definition handled (b : backend) : code b -> Prop :=
  match b return code b -> Prop with
  | Fast | Rt _ _ _ => fun c => c <> F_infeasible
  | Prox => fun c => c <> P_closest /\ c <> P_not_run
  | _ => fun _ => True
  end.
(** The external solver reports an optimum. *)
Definition optimum (b : backend) : code b -> Prop :=
  match b return code b -> Prop with
  | Eiq => fun inf => inf = false
  | Fast | Rt _ _ _ => fun c => c = F_optimal
  | Prox => fun c => c = P_solved
  | Osqp => fun c => c = O_solved
  | Qpmad => fun c => c = Q_ok
  end.

(** ... reports that the problem has no solution (qpmad: any failure). *)
Definition no_solution (b : backend) : code b -> Prop :=
  match b return code b -> Prop with
  | Eiq => fun inf => inf = true
  | Fast | Rt _ _ _ => fun c => c = F_unbounded
  | Prox => fun c => c = P_primal_infeasible \/ c = P_dual_infeasible
  | Osqp => fun c => c = O_primal_infeasible \/ c = O_dual_infeasible
  | Qpmad => fun c => c <> Q_ok
  end.
(** ... gave up (osqp: also when the solution is inaccurate). *)
Definition gave_up (b : backend) : code b -> Prop :=
  match b return code b -> Prop with
  | Fast | Rt _ _ _ => fun c => c = F_max_iter
  | Prox => fun c => c = P_max_iter
  | Osqp => fun c => c = O_max_iter \/ c = O_solved_inaccurate
  | _ => fun _ => False
  end.
