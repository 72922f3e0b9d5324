(** The HQP solvers: what each back-end is asked to solve and what is reported.

    src/solvers/solver-HQP-eiquadprog.cpp       ("eiq")
    src/solvers/solver-HQP-eiquadprog-fast.cpp  ("fast")
    include/tsid/solvers/solver-HQP-eiquadprog-rt.hxx ("rt")
    src/solvers/solver-proxqp.cpp               ("prox")
    src/solvers/solver-osqp.cpp                 ("osqp")
    src/solvers/solver-HQP-qpmad.cpp            ("qpmad")

    The numerical QP solvers are external: a call of solve hands them the QP data
    computed here and receives an arbitrary answer.  Elsewhere: their settings
    (SolverSettings.v), the multipliers, active set and iteration count copied into the
    output (SolverOutput.v), messages (SolverReport.v).  Not modelled: profiling. *)
From Coq Require Import List Arith Bool QArith.
From Verif Require Import Scalar Outcome Linalg Constraint.
Import ListNotations.
Open Scope nat_scope.

(** include/tsid/solvers/fwd.hpp:61-68 *)
Inductive status := St_unknown | St_optimal | St_infeasible | St_unbounded | St_max_iter | St_error.

(** include/tsid/solvers/fwd.hpp:36-56.  The sizes of SolverHQuadProgRT are template
    parameters. *)
Inductive backend := Eiq | Fast | Rt (nv ne ni : nat) | Prox | Osqp | Qpmad.

(** Results of the external solvers.  eiquadprog returns the objective value, of
    which only "is it +infinity" is used (eiq:228).  eiquadprog-fast and
    eiquadprog-rt: EiquadprogFast_status and RtEiquadprog_status; proxsuite:
    QPSolverOutput; OsqpEigen::Status; qpmad::Solver::ReturnStatus. *)
Inductive fast_code := F_optimal | F_infeasible | F_unbounded | F_max_iter | F_redundant.
Inductive prox_code := P_solved | P_max_iter | P_primal_infeasible | P_closest | P_dual_infeasible | P_not_run.
Inductive osqp_code := O_solved | O_solved_inaccurate | O_primal_infeasible | O_dual_infeasible | O_max_iter | O_other.
Inductive qpmad_code := Q_ok | Q_infeasible_equality | Q_infeasible_inequality | Q_max_iter.

Definition code (b : backend) : Type :=
  match b with
  | Eiq => bool
  | Fast => fast_code
  | Rt _ _ _ => fast_code
  | Prox => prox_code
  | Osqp => osqp_code
  | Qpmad => qpmad_code
  end.

Section Solvers.
Context {K : num}.

(** include/tsid/solvers/fwd.hpp:93-99; shared pointers that are never null. *)
Definition level := list (K * constr K).
Definition hqpdata := list level.

(** #define DEFAULT_HESSIAN_REGULARIZATION 1e-8, include/tsid/solvers/fwd.hpp:28.
    The members m_hessian_regularization of the solvers are initialised with it and
    have no setter. *)
Definition reg0 : K := nofQ (1 # 100000000).
(** std::numeric_limits<double>::min() = 2^-1022 and ::max() = (2-2^-52)*2^1023,
    used at qpmad:91-92. *)
Definition dbl_min : K := nofQ (Qpower 2 (-1022)).
Definition dbl_max : K := nofQ ((2 - Qpower 2 (-52)) * Qpower 2 1023).

(** Members of a solver object.  One record for all the classes: [q_n], [q_neq],
    [q_nin] are m_n, m_neq, m_nin (qpmad: m_n and m_nc, the latter in [q_neq]);
    [q_CE]/[q_ce0] are CE/ce0 (unused by osqp and qpmad); [q_CI] is CI (qpmad: m_C);
    [q_cil] is ci0 for eiq, fast and rt and ci_lb (qpmad: m_cl) otherwise; [q_ciu] is
    ci_ub (qpmad: m_cu); [q_hasb], [q_lb], [q_ub] are m_has_bounds, m_lb, m_ub of
    qpmad; [q_x] and [q_status] are x and status of m_output. *)
Record sst := mkS {
  q_n : nat; q_neq : nat; q_nin : nat;
  q_CE : mat K; q_ce0 : vec K;
  q_CI : mat K; q_cil : vec K; q_ciu : vec K;
  q_H : mat K; q_g : vec K;
  q_hasb : bool; q_lb : vec K; q_ub : vec K;
  q_x : vec K; q_status : status }.

Definition w_eq s M v := mkS (q_n s) (q_neq s) (q_nin s) M v (q_CI s) (q_cil s) (q_ciu s)
  (q_H s) (q_g s) (q_hasb s) (q_lb s) (q_ub s) (q_x s) (q_status s).
Definition w_in s M l u := mkS (q_n s) (q_neq s) (q_nin s) (q_CE s) (q_ce0 s) M l u
  (q_H s) (q_g s) (q_hasb s) (q_lb s) (q_ub s) (q_x s) (q_status s).
Definition w_cost s H g := mkS (q_n s) (q_neq s) (q_nin s) (q_CE s) (q_ce0 s) (q_CI s) (q_cil s) (q_ciu s)
  H g (q_hasb s) (q_lb s) (q_ub s) (q_x s) (q_status s).
Definition w_bnd s h l u := mkS (q_n s) (q_neq s) (q_nin s) (q_CE s) (q_ce0 s) (q_CI s) (q_cil s) (q_ciu s)
  (q_H s) (q_g s) h l u (q_x s) (q_status s).
Definition w_out s x st := mkS (q_n s) (q_neq s) (q_nin s) (q_CE s) (q_ce0 s) (q_CI s) (q_cil s) (q_ciu s)
  (q_H s) (q_g s) (q_hasb s) (q_lb s) (q_ub s) x st.

(** Contents of memory that Eigen's resize() leaves unspecified: [jk a i j] is entry
    (i,j) of array number [a].  Theorems quantify over it. *)
Definition junk := nat -> nat -> nat -> K.
Definition jmat (jk : junk) a r c : mat K := mkMat r c (jk a).
Definition jvec (jk : junk) a n : vec K := mkVec n (fun i => jk a i 0).

(** Constructors: eiq:15-21, fast:19-25, prox:14-28, osqp:14-27, qpmad:19-24 start
    with empty matrices; rt:23-31 has fixed sizes.  m_has_bounds (qpmad.hpp:52) and
    the status (solver-HQP-output.hpp:26) are left uninitialised, so they are
    arguments here. *)
Definition solver_new (b : backend) (jk : junk) (hb : bool) (st : status) : sst :=
  match b with
  | Rt nv ne ni =>
      mkS nv ne ni (jmat jk 0 ne nv) (jvec jk 1 ne) (jmat jk 2 (2 * ni) nv) (jvec jk 3 (2 * ni)) (vzero 0)
          (jmat jk 5 nv nv) (jvec jk 6 nv) hb (vzero 0) (vzero 0) (jvec jk 7 nv) st
  | _ => mkS 0 0 0 (mzero 0 0) (vzero 0) (mzero 0 0) (vzero 0) (vzero 0) (mzero 0 0) (vzero 0)
          hb (vzero 0) (vzero 0) (vzero 0) st
  end.

(** resize(n, neq, nin): eiq:27-61, fast:31-70, rt:38-49, prox:34-82, osqp:48-93,
    qpmad:30-61.  rt only asserts the sizes and prints a message otherwise. *)
Definition resize (b : backend) (dbg : bool) (jk : junk) (s : sst) (n neq nin : nat) : option sst :=
  let rv := negb (n =? q_n s) in
  let re := rv || negb (neq =? q_neq s) in
  let ri := rv || negb (nin =? q_nin s) in
  let H := if rv then jmat jk 5 n n else q_H s in
  let g := if rv then jvec jk 6 n else q_g s in
  let x := if rv then jvec jk 7 n else q_x s in
  match b with
  | Eiq | Fast =>
      Some (mkS n neq nin
              (if re then jmat jk 0 neq n else q_CE s) (if re then jvec jk 1 neq else q_ce0 s)
              (if ri then jmat jk 2 (2 * nin) n else q_CI s) (if ri then jvec jk 3 (2 * nin) else q_cil s)
              (q_ciu s) H g (q_hasb s) (q_lb s) (q_ub s) x (q_status s))
  | Rt nv ne ni =>
      if dbg && negb ((n =? nv) && (neq =? ne) && (nin =? ni)) then None else Some s
  | Prox =>
      Some (mkS n neq nin
              (if re then jmat jk 0 neq n else q_CE s) (if re then jvec jk 1 neq else q_ce0 s)
              (if ri then jmat jk 2 nin n else q_CI s) (if ri then jvec jk 3 nin else q_cil s)
              (if ri then jvec jk 4 nin else q_ciu s)
              H g (q_hasb s) (q_lb s) (q_ub s) x (q_status s))
  | Osqp =>
      Some (mkS n neq nin (q_CE s) (q_ce0 s)
              (if ri || re then jmat jk 2 (nin + neq) n else q_CI s)
              (if ri || re then jvec jk 3 (nin + neq) else q_cil s)
              (if ri || re then jvec jk 4 (nin + neq) else q_ciu s)
              H g (q_hasb s) (q_lb s) (q_ub s) x (q_status s))
  | Qpmad =>
      let nc := neq + nin in
      let rc := rv || negb (nc =? q_neq s) in
      Some (mkS n nc 0 (q_CE s) (q_ce0 s)
              (if rc then jmat jk 2 nc n else q_CI s) (if rc then jvec jk 3 nc else q_cil s)
              (if rc then jvec jk 4 nc else q_ciu s)
              H g (q_hasb s)
              (if rv && q_hasb s then jvec jk 8 n else q_lb s)
              (if rv && q_hasb s then jvec jk 9 n else q_ub s) x (q_status s))
  end.

(** First loop over level 0: sizes (eiq:74-83, fast:83-92, rt:71-80, prox:96-105,
    osqp:107-116; qpmad:75-86 does not count the bounds).  The assert on the columns
    is checked in every build: without it the block assignments below would have
    mismatching sizes. *)
Definition count1 (b : backend) (n : nat) (acc : nat * nat * bool) (wc : K * constr K) : option (nat * nat * bool) :=
  let '(neq, nin, hb) := acc in
  let c := snd wc in
  do k <- ccols c;
  do _ <- guard (n =? k);
  do r <- crows c;
  Some (match b, c_kind c with
        | _, CEq => (neq + r, nin, hb)
        | Qpmad, CBound => (neq, nin, true)
        | _, _ => (neq, nin + r, hb)
        end).
Definition counts b n (l : level) := ofold (count1 b n) l (0, 0, false).

(** M.middleRows(i,r) = A; v.segment(i,r) = a *)
Definition put (M : mat K) (v : vec K) i r A a : option (mat K * vec K) :=
  do M' <- mset_rows M i r A;
  do v' <- vset_seg v i r a;
  Some (M', v').
Definition put2 (M : mat K) (l u : vec K) i r A a b : option (mat K * vec K * vec K) :=
  do M' <- mset_rows M i r A;
  do l' <- vset_seg l i r a;
  do u' <- vset_seg u i r b;
  Some (M', l', u').

(** Second loop over level 0; [(s, i_eq, i_in)]. *)
(** eiq:88-111, fast:97-121, rt:85-107 *)
Definition fill_one (st : sst * nat * nat) (wc : K * constr K) : option (sst * nat * nat) :=
  let '(s, ie, ii) := st in
  let c := snd wc in
  do r <- crows c;
  match c_kind c with
  | CEq =>
      do (A, a) <- put (q_CE s) (q_ce0 s) ie r (c_mat c) (vopp (c_vec c));
      Some (w_eq s A a, ie + r, ii)
  | CIneq =>
      do (A, a) <- put (q_CI s) (q_cil s) ii r (c_mat c) (vopp (c_lb c));
      do (B, b) <- put A a (ii + r) r (mopp (c_mat c)) (c_ub c);
      Some (w_in s B b (q_ciu s), ie, ii + r + r)
  | CBound =>
      do (A, a) <- put (q_CI s) (q_cil s) ii r (mident r (mcols (q_CI s))) (vopp (c_lb c));
      do (B, b) <- put A a (ii + r) r (mopp (mident (q_n s) (q_n s))) (c_ub c);
      Some (w_in s B b (q_ciu s), ie, ii + r + r)
  end.
(** prox:110-128 *)
Definition fill_prox (st : sst * nat * nat) (wc : K * constr K) : option (sst * nat * nat) :=
  let '(s, ie, ii) := st in
  let c := snd wc in
  do r <- crows c;
  match c_kind c with
  | CEq =>
      do (A, a) <- put (q_CE s) (q_ce0 s) ie r (c_mat c) (c_vec c);
      Some (w_eq s A a, ie + r, ii)
  | CIneq =>
      do (A, l, u) <- put2 (q_CI s) (q_cil s) (q_ciu s) ii r (c_mat c) (c_lb c) (c_ub c);
      Some (w_in s A l u, ie, ii + r)
  | CBound =>
      do (A, l, u) <- put2 (q_CI s) (q_cil s) (q_ciu s) ii r (mident r (mcols (q_CI s))) (c_lb c) (c_ub c);
      Some (w_in s A l u, ie, ii + r)
  end.
(** osqp:121-140 *)
Definition fill_osqp (st : sst * nat * nat) (wc : K * constr K) : option (sst * nat * nat) :=
  let '(s, ie, ii) := st in
  let c := snd wc in
  do r <- crows c;
  match c_kind c with
  | CEq =>
      do (A, l, u) <- put2 (q_CI s) (q_cil s) (q_ciu s) ii r (c_mat c) (c_vec c) (c_vec c);
      Some (w_in s A l u, ie, ii + r)
  | CIneq =>
      do (A, l, u) <- put2 (q_CI s) (q_cil s) (q_ciu s) ii r (c_mat c) (c_lb c) (c_ub c);
      Some (w_in s A l u, ie, ii + r)
  | CBound =>
      do (A, l, u) <- put2 (q_CI s) (q_cil s) (q_ciu s) ii r (mident r (mcols (q_CI s))) (c_lb c) (c_ub c);
      Some (w_in s A l u, ie, ii + r)
  end.
(** u.cwiseMax(v) and u.cwiseMin(v); the sizes must agree. *)
Definition vmax (u v : vec K) : option (vec K) :=
  if vlen u =? vlen v then Some (mkVec (vlen u) (fun i => nmax (vget u i) (vget v i))) else None.
Definition vmin (u v : vec K) : option (vec K) :=
  if vlen u =? vlen v then Some (mkVec (vlen u) (fun i => nmin (vget u i) (vget v i))) else None.
(** qpmad:96-114 *)
Definition fill_qpmad (st : sst * nat * nat) (wc : K * constr K) : option (sst * nat * nat) :=
  let '(s, ie, ii) := st in
  let c := snd wc in
  do r <- crows c;
  match c_kind c with
  | CEq =>
      do (A, l, u) <- put2 (q_CI s) (q_cil s) (q_ciu s) ii r (c_mat c) (c_vec c) (c_vec c);
      Some (w_in s A l u, ie, ii + r)
  | CIneq =>
      do (A, l, u) <- put2 (q_CI s) (q_cil s) (q_ciu s) ii r (c_mat c) (c_lb c) (c_ub c);
      Some (w_in s A l u, ie, ii + r)
  | CBound =>
      do l <- vmax (q_lb s) (c_lb c);
      do u <- vmin (q_ub s) (c_ub c);
      Some (w_bnd s (q_hasb s) l u, ie, ii)
  end.
Definition fill (b : backend) :=
  match b with
  | Eiq | Fast | Rt _ _ _ => fill_one
  | Prox => fill_prox
  | Osqp => fill_osqp
  | Qpmad => fill_qpmad
  end.

(** m_has_bounds = false; ... = true (qpmad:71, 84-85), then the reset of the bounds
    (qpmad:90-93). *)
Definition note_bounds (b : backend) (s : sst) (hb : bool) : sst :=
  match b with Qpmad => w_bnd s hb (q_lb s) (q_ub s) | _ => s end.
Definition reset_bounds (b : backend) (s : sst) : sst :=
  match b with
  | Qpmad => if q_hasb s then
               w_bnd s (q_hasb s) (mkVec (vlen (q_lb s)) (fun _ => dbl_min)) (mkVec (vlen (q_ub s)) (fun _ => dbl_max))
             else s
  | _ => s
  end.

(** Level 0: eiq:70-113, fast:79-123, rt:67-109, prox:91-131, osqp:102-143,
    qpmad:70-116. *)
Definition level0 (b : backend) dbg jk (s : sst) (cl0 : level) : option sst :=
  match cl0 with
  | [] => resize b dbg jk (note_bounds b s false) (q_n s) 0 0
  | wc :: _ =>
      do n <- ccols (snd wc);
      do (neq, nin, hb) <- counts b n cl0;
      do s1 <- resize b dbg jk (note_bounds b s hb) n neq nin;
      do (s2, _, _) <- ofold (fill b) cl0 (reset_bounds b s1, 0, 0);
      Some s2
  end.

(** H += w * A^T * A and g -= w * A^T * b.  eiq:127-128, rt:124-126 and qpmad:130-131
    multiply the product A^T b by w; fast:142-147, prox:150-155 and osqp:162-167
    multiply (w A^T) by b. *)
Definition add_cost (b : backend) (s : sst) (w : K) (c : constr K) : option sst :=
  let A := c_mat c in
  do _ <- guard ((mcols A =? mrows (q_H s)) && (mcols A =? mcols (q_H s)) &&
                 (mcols A =? vlen (q_g s)) && (mrows A =? vlen (c_vec c)));
  let H := mkMat (mrows (q_H s)) (mcols (q_H s)) (fun i j =>
     (mget (q_H s) i j + nsum (mrows A) (fun k => (w * mget A k i) * mget A k j))%num) in
  let g := mkVec (vlen (q_g s)) (fun i =>
     match b with
     | Eiq | Rt _ _ _ | Qpmad => (vget (q_g s) i - w * nsum (mrows A) (fun k => mget A k i * vget (c_vec c) k))%num
     | _ => (vget (q_g s) i - nsum (mrows A) (fun k => (w * mget A k i) * vget (c_vec c) k))%num
     end) in
  Some (w_cost s H g).
Fixpoint add_costs (b : backend) (s : sst) (l : level) : outcome sst unit :=
  match l with
  | [] => Ret s tt
  | (w, c) :: l' =>
      match c_kind c with
      | CEq => match add_cost b s w c with Some s' => add_costs b s' l' | None => Undef end
      | _ => Exc s
      end
  end.
(** H.setZero(); g.setZero() *)
Definition zero_cost (s : sst) : sst :=
  w_cost s (mzero (mrows (q_H s)) (mcols (q_H s))) (vzero (vlen (q_g s))).
(** H.diagonal() += reg * Ones(m_n): eiq:130, rt:128; H.diagonal().array() += reg:
    fast:150-153, prox:158-161, osqp:170-173 (only if hessianRegularization),
    qpmad:133. *)
Definition add_reg (b : backend) (flag : bool) (s : sst) : option sst :=
  let d (r : K) := mkMat (mrows (q_H s)) (mcols (q_H s))
                     (fun i j => if i =? j then (mget (q_H s) i j + r)%num else mget (q_H s) i j) in
  match b with
  | Eiq | Rt _ _ _ =>
      do _ <- guard ((q_n s =? mrows (q_H s)) && (q_n s =? mcols (q_H s)));
      Some (w_cost s (d (reg0 * n1)%num) (q_g s))
  | Fast | Prox | Osqp => Some (if flag then w_cost s (d reg0) (q_g s) else s)
  | Qpmad => Some (w_cost s (d reg0) (q_g s))
  end.

(** eiq:115-131, fast:128-154, rt:111-129, prox:136-162, osqp:148-174, qpmad:118-134 *)
Definition level1 (b : backend) (flag : bool) (s : sst) (cl1 : level) : outcome sst unit :=
  match add_costs b (zero_cost s) cl1 with
  | Ret s1 _ => match add_reg b flag s1 with Some s2 => Ret s2 tt | None => Undef end
  | Exc s1 => Exc s1
  | Undef => Undef
  end.

(** retrieveQPData (eiq:63-131, fast:72-155, prox:84-163, osqp:95-175, qpmad:63-135)
    and the first half of rt's solve (rt:62-129).  problemData[0] of an empty vector is
    out of bounds. *)
Definition prepare (b : backend) dbg jk (s : sst) (P : hqpdata) (flag : bool) : outcome sst unit :=
  match P with
  | [] => Undef
  | cl0 :: rest =>
      if 2 <? List.length P then Exc s else
      match level0 b dbg jk s cl0 with
      | None => Undef
      | Some s1 => match rest with [] => Ret s1 tt | cl1 :: _ => level1 b flag s1 cl1 end
      end
  end.
(** rt's retrieveQPData does nothing (solver-HQP-eiquadprog-rt.hpp:53-54). *)
Definition retrieve (b : backend) dbg jk (s : sst) (P : hqpdata) (flag : bool) : outcome sst unit :=
  match b with Rt _ _ _ => Ret s tt | _ => prepare b dbg jk s P flag end.
(** Default argument of retrieveQPData used by solve: true in
    solver-HQP-eiquadprog.hpp:49, -fast.hpp:50 and -qpmad.hpp:39, false in
    solver-proxqp.hpp:58 and solver-osqp.hpp:55. *)
Definition default_flag (b : backend) : bool := match b with Prox | Osqp => false | _ => true end.

(** Status after the external solver returned: eiq:228-231, fast:172-215,
    rt:160-202, prox:184-226, osqp:213-258, qpmad:155-158.  [old] is the status left
    by the previous call. *)
Definition new_status (b : backend) (old : status) : code b -> status :=
  match b return code b -> status with
  | Eiq => fun inf => if (inf : bool) then St_infeasible else St_optimal
  | Fast => fun c => match c with F_optimal => St_optimal | F_unbounded => St_infeasible
                     | F_max_iter => St_max_iter | F_redundant => St_error | F_infeasible => old end
  | Rt _ _ _ => fun c => match c with F_optimal => St_optimal | F_unbounded => St_infeasible
                     | F_max_iter => St_max_iter | F_redundant => St_error | F_infeasible => old end
  | Prox => fun c => match c with P_solved => St_optimal | P_primal_infeasible => St_infeasible
                     | P_max_iter => St_max_iter | P_dual_infeasible => St_infeasible
                     | P_closest | P_not_run => old end
  | Osqp => fun c => match c with O_solved => St_optimal | O_primal_infeasible => St_infeasible
                     | O_max_iter => St_max_iter | O_dual_infeasible => St_infeasible
                     | O_solved_inaccurate => St_max_iter | O_other => St_unknown end
  | Qpmad => fun c => match c with Q_ok => St_optimal | _ => St_infeasible end
  end.
(** x: written by the external solver in place (eiq:223-226, fast:166-168,
    qpmad:147-153), copied always (rt:154) or only when solved (prox:185, osqp:214). *)
Definition new_x (b : backend) (old ans : vec K) : code b -> vec K :=
  match b return code b -> vec K with
  | Prox => fun c => match c with P_solved => ans | _ => old end
  | Osqp => fun c => match c with O_solved => ans | _ => old end
  | _ => fun _ => ans
  end.

(** solve: eiq:208-263, fast:157-218, rt:51-205, prox:165-229, osqp:177-261,
    qpmad:137-192.  The result is the reference to m_output. *)
Definition solve (b : backend) dbg jk (s : sst) (P : hqpdata) (ans : code b) (x : vec K) : outcome sst (status * vec K) :=
  match prepare b dbg jk s P (default_flag b) with
  | Ret s1 _ =>
      let s2 := w_out s1 (new_x b (q_x s1) x ans) (new_status b (q_status s1) ans) in
      Ret s2 (q_status s2, q_x s2)
  | Exc s1 => Exc s1
  | Undef => Undef
  end.

(** Calls on one solver object. *)
Inductive sop (b : backend) :=
| SResize (n neq nin : nat) (jk : junk)
| SRetrieve (P : hqpdata) (flag : bool) (jk : junk)
| SSolve (P : hqpdata) (jk : junk) (ans : code b) (x : vec K).
Definition sstep (b : backend) dbg (s : sst) (o : sop b) : outcome sst (status * vec K) :=
  match o with
  | SResize _ n neq nin jk => match resize b dbg jk s n neq nin with
                              | Some s' => Ret s' (q_status s', q_x s') | None => Undef end
  | SRetrieve _ P flag jk => match retrieve b dbg jk s P flag with
                             | Ret s' _ => Ret s' (q_status s', q_x s') | Exc s' => Exc s' | Undef => Undef end
  | SSolve _ P jk ans x => solve b dbg jk s P ans x
  end.

End Solvers.
Arguments level : clear implicits.
Arguments hqpdata : clear implicits.
Arguments sst : clear implicits.
Arguments junk : clear implicits.
Arguments sop : clear implicits.
