(** Contact objects: parameters, force constraint, force generator and force
    regularisation task.

    src/contacts/contact-6d.cpp                   ("6d")
    src/contacts/contact-point.cpp                ("point")
    src/contacts/contact-two-frame-positions.cpp  ("two")

    The motion tasks of the contacts (TaskSE3Equality, TaskTwoFramesEquality) and their
    gains are in ContactMotion.v. *)
From Coq Require Import String List Arith Bool QArith.
From Verif Require Import Scalar Outcome Linalg Constraint.
Import ListNotations.
Open Scope string_scope.
Open Scope list_scope.
Open Scope nat_scope.

Inductive kind := K6 | KP | K2.
(** Number of contact points and of force variables: 6d:66-67,131, point:50-51,101,
    two:88. *)
Definition npts (k : kind) : nat := match k with K6 => 4 | _ => 1 end.
Definition nforce (k : kind) : nat := 3 * npts k.
(** Rows of the force regularisation task: 6d:25, point:25, two:26. *)
Definition nreg (k : kind) : nat := match k with K6 => 6 | _ => 3 end.

Section Contacts.
Context {K : num}.
(** sqrt of <cmath>, through Eigen's norm() and normalize(). *)
Variable sq : K -> K.

(** Vector3 arithmetic; sizes are 3 by type. *)
Definition v3 (a b c : K) : vec K := mkVec 3 (fun i => match i with 0 => a | 1 => b | _ => c end).
Definition unit_x : vec K := v3 n1 n0 n0.
Definition unit_y : vec K := v3 n0 n1 n0.
(** a.cross(b) *)
Definition cross (a b : vec K) : vec K :=
  v3 (vget a 1 * vget b 2 - vget a 2 * vget b 1)%num
     (vget a 2 * vget b 0 - vget a 0 * vget b 2)%num
     (vget a 0 * vget b 1 - vget a 1 * vget b 0)%num.
Definition dot3 (a b : vec K) : K := (vget a 0 * vget b 0 + vget a 1 * vget b 1 + vget a 2 * vget b 2)%num.
Definition norm3 (a : vec K) : K := sq (dot3 a a).
(** a.normalize(): divides by the norm only if the squared norm is positive
    (Eigen/src/Core/Dot.h). *)
Definition normalize3 (a : vec K) : vec K :=
  let z := dot3 a a in
  if (n0 <? z)%num then mkVec 3 (fun i => (vget a i / sq z)%num) else a.
Definition scal3 (k : K) (a : vec K) : vec K := mkVec 3 (fun i => (k * vget a i)%num).
Definition sub3 (a b : vec K) : vec K := mkVec 3 (fun i => (vget a i - vget b i)%num).

(** M.block(i, j, r, c) = b with the sizes known to fit. *)
Definition blk (M : mat K) (i j r c : nat) (b : nat -> nat -> K) : mat K :=
  mkMat (mrows M) (mcols M) (fun x y =>
    if (i <=? x) && (x <? i + r) && (j <=? y) && (y <? j + c) then b (x - i) (y - j) else mget M x y).
Definition row3 (v : vec K) : nat -> nat -> K := fun _ y => vget v y.

(** The tangents: 6d:71-75, point:55-59. *)
Definition tangent1 (n : vec K) : vec K :=
  let t1 := cross n unit_x in
  if (norm3 t1 <? nofQ (1 # 100000))%num then cross n unit_y else t1.
Definition t_one (n : vec K) : vec K := normalize3 (tangent1 n).
Definition t_two (n : vec K) : vec K := normalize3 (cross n (tangent1 n)).

(** The matrix B: 6d:68,77-89, point:52,61-66. *)
Definition first_rows (np : nat) (n : vec K) (mu : K) : mat K :=
  let t1 := t_one n in
  let t2 := t_two n in
  let B0 := mzero (4 * np + 1) (3 * np) in
  let B1 := blk B0 0 0 1 3 (row3 (sub3 (vopp t1) (scal3 mu n))) in
  let B2 := blk B1 1 0 1 3 (row3 (sub3 t1 (scal3 mu n))) in
  let B3 := blk B2 2 0 1 3 (row3 (sub3 (vopp t2) (scal3 mu n))) in
  blk B3 3 0 1 3 (row3 (sub3 t2 (scal3 mu n))).
(** for i = 1 .. np-1 *)
Definition copy_rows (np : nat) (B : mat K) : mat K :=
  fold_left (fun M i => blk M (4 * i) (3 * i) 4 3 (mget M)) (seq 1 (np - 1)) B.
Definition last_row (np : nat) (n : vec K) (B : mat K) : mat K :=
  fold_left (fun M i => blk M (4 * np) (3 * i) 1 3 (row3 n)) (seq 0 np) B.
Definition friction_matrix (np : nat) (n : vec K) (mu : K) : mat K :=
  last_row np n (copy_rows np (first_rows np n mu)).
(** lb and ub: 6d:69-70,90-91, point:53-54,67-68. *)
Definition set_last (v : vec K) (x : K) : vec K :=
  mkVec (vlen v) (fun i => if i =? vlen v - 1 then x else vget v i).
Definition friction_lb (np : nat) (fmin : K) : vec K :=
  set_last (mkVec (4 * np + 1) (fun _ => (nofQ (-10000000000) * n1)%num)) fmin.
Definition friction_ub (np : nat) (fmax : K) : vec K := set_last (vzero (4 * np + 1)) fmax.

(** updateForceInequalityConstraints: 6d:64-96, point:48-73, two:48-57. *)
Definition force_ineq (k : kind) (name : string) (n : vec K) (mu fmin fmax : K) : constr K :=
  match k with
  | K2 => mkConstr name CIneq (mident 3 3) (vzero 0) (mkVec 3 (fun _ => (fmin * n1)%num)) (mkVec 3 (fun _ => (fmax * n1)%num))
  | _ => mkConstr name CIneq (friction_matrix (npts k) n mu) (vzero 0) (friction_lb (npts k) fmin) (friction_ub (npts k) fmax)
  end.

(** pinocchio::skew *)
Definition skew (p : vec K) : nat -> nat -> K := fun i j =>
  match i, j with
  | 0, 1 => (- vget p 2)%num | 0, 2 => vget p 1
  | 1, 0 => vget p 2 | 1, 2 => (- vget p 0)%num
  | 2, 0 => (- vget p 1)%num | 2, 1 => vget p 0
  | _, _ => n0
  end.
Definition mcol (M : mat K) (j : nat) : vec K := mkVec (mrows M) (fun i => mget M i j).
(** updateForceGeneratorMatrix: 6d:120-128 (G is the matrix before: every entry is
    overwritten), point:98, two:81-83. *)
Definition force_gen (k : kind) (G P : mat K) : mat K :=
  match k with
  | K6 => fold_left (fun M i => blk (blk M 0 (3 * i) 3 3 (fun x y => if x =? y then n1 else n0))
                                    3 (3 * i) 3 3 (skew (mcol P i))) (seq 0 4) G
  | _ => mident 3 3
  end.
(** updateForceRegularizationTask: 6d:112-118, point:91-96, two:73-79. *)
Definition diag (w : vec K) : mat K := mkMat (vlen w) (vlen w) (fun i j => if i =? j then vget w i else n0).
Definition force_reg (k : kind) (name : string) (w fref : vec K) (G : mat K) : option (constr K) :=
  do A <- match k with K6 => mmul (diag w) G | _ => Some (diag w) end;
  do b <- mvec (diag w) fref;
  Some (mkConstr name CEq A b (vzero 0) (vzero 0)).

(** Members. *)
Record cont := mkCont {
  k_pts : mat K; k_n : vec K; k_fref : vec K; k_w : vec K;
  k_mu : K; k_fmin : K; k_fmax : K;
  k_gen : mat K; k_ineq : constr K; k_reg : constr K }.

(** Constructors: 6d:17-62, point:16-42, two:17-46.  [jk] is the memory left
    unspecified by resize (6d:57).  Vector3(contactNormal) and Matrix3x(contactPoints)
    assert the sizes; the number of points is asserted only in debug builds (6d:122),
    with fewer than 4 columns the access is out of bounds.  No argument is checked. *)
Definition cont_new (k : kind) (dbg : bool) (jk : nat -> nat -> K) (name : string) (P : mat K) (n : vec K) (mu fmin fmax : K) : option cont :=
  do _ <- match k with
          | K6 => guard ((mrows P =? 3) && (4 <=? mcols P) && (negb dbg || (mcols P =? 4)) && (vlen n =? 3))
          | KP => guard (vlen n =? 3)
          | K2 => Some tt
          end;
  let pts := match k with K6 => P | _ => mzero 3 1 end in
  let w := match k with
           | K6 => mkVec 6 (fun i => match i with 0 | 1 => nofQ 1 | 2 => nofQ (1 # 1000) | _ => nofQ 2 end)
           | KP => mkVec 3 (fun i => match i with 0 | 1 => nofQ 1 | _ => nofQ (1 # 1000) end)
           | K2 => mkVec 3 (fun _ => nofQ 1)
           end in
  let G := force_gen k (mkMat 6 12 jk) pts in
  do r <- force_reg k name w (vzero (nreg k)) G;
  Some (mkCont pts n (vzero (nreg k)) w mu fmin fmax G (force_ineq k name n mu fmin fmax) r).

Definition w_ineq s n mu fmin fmax c :=
  mkCont (k_pts s) n (k_fref s) (k_w s) mu fmin fmax (k_gen s) c (k_reg s).
Definition w_reg s fref w c :=
  mkCont (k_pts s) (k_n s) fref w (k_mu s) (k_fmin s) (k_fmax s) (k_gen s) (k_ineq s) c.

(** Setters.  Only Contact6d has setContactPoints. *)
Inductive cop : kind -> Type :=
| SetPoints (P : mat K) : cop K6
| SetNormal k (n : vec K) : cop k
| SetMu k (mu : K) : cop k
| SetMin k (f : K) : cop k
| SetMax k (f : K) : cop k
| SetFref k (f : vec K) : cop k
| SetWeights k (w : vec K) : cop k.

(** PINOCCHIO_CHECK_INPUT_ARGUMENT throws std::invalid_argument. *)
Definition check_arg (c : bool) (s s' : cont) : outcome cont bool := if c then Ret s' true else Exc s.
Definition refresh_reg (k : kind) (s : cont) (fref w : vec K) : outcome cont bool :=
  match force_reg k (c_name (k_reg s)) w fref (k_gen s) with
  | Some c => Ret (w_reg s fref w c) true
  | None => Undef
  end.
Definition refresh_ineq (k : kind) (s : cont) (n : vec K) (mu : K) : cont :=
  w_ineq s n mu (k_fmin s) (k_fmax s) (force_ineq k (c_name (k_ineq s)) n mu (k_fmin s) (k_fmax s)).
Definition cstep (k : kind) (s : cont) (o : cop k) : outcome cont bool :=
  match o with
  | SetPoints P =>                          (* 6d:138-147 *)
      check_arg ((mrows P =? 3) && (mcols P =? 4)) s
        (mkCont P (k_n s) (k_fref s) (k_w s) (k_mu s) (k_fmin s) (k_fmax s)
                (force_gen K6 (k_gen s) P) (k_ineq s) (k_reg s))
  | SetNormal k n =>                        (* 6d:151-159, point:129-137, two:114-116 *)
      match k with K2 => Ret s true | _ => check_arg (vlen n =? 3) s (refresh_ineq k s n (k_mu s)) end
  | SetMu k mu =>                           (* 6d:161-169, point:139-146, two:118-121 *)
      match k with K2 => Ret s true | _ => check_arg (n0 <? mu)%num s (refresh_ineq k s (k_n s) mu) end
  | SetMin k f =>                           (* 6d:171-181, point:148-158, two:123-127 *)
      match k with
      | K2 => Ret (w_ineq s (k_n s) (k_mu s) f (k_fmax s) (force_ineq K2 (c_name (k_ineq s)) (k_n s) (k_mu s) f (k_fmax s))) true
      | _ => check_arg ((n0 <? f)%num && (f <=? k_fmax s)%num) s
               (w_ineq s (k_n s) (k_mu s) f (k_fmax s)
                  (mkConstr (c_name (k_ineq s)) (c_kind (k_ineq s)) (c_mat (k_ineq s)) (c_vec (k_ineq s))
                            (set_last (c_lb (k_ineq s)) f) (c_ub (k_ineq s))))
      end
  | SetMax k f =>                           (* 6d:183-192, point:160-169, two:129-133 *)
      match k with
      | K2 => Ret (w_ineq s (k_n s) (k_mu s) (k_fmin s) f (force_ineq K2 (c_name (k_ineq s)) (k_n s) (k_mu s) (k_fmin s) f)) true
      | _ => check_arg (k_fmin s <=? f)%num s
               (w_ineq s (k_n s) (k_mu s) (k_fmin s) f
                  (mkConstr (c_name (k_ineq s)) (c_kind (k_ineq s)) (c_mat (k_ineq s)) (c_vec (k_ineq s))
                            (c_lb (k_ineq s)) (set_last (c_ub (k_ineq s)) f)))
      end
  | SetFref k f =>                          (* 6d:194-197, point:171-176, two:135-138 *)
      match k with
      | KP => if vlen f =? 3 then refresh_reg k s f (k_w s) else Exc s
      | _ => if vlen f =? nreg k then refresh_reg k s f (k_w s) else Undef
      end
  | SetWeights k w =>                       (* 6d:107-110, point:86-89, two:67-71 *)
      if vlen w =? nreg k then refresh_reg k s (k_fref s) w else Undef
  end.

(** getNormalForce: 6d:98-105, point:75-80, two:59-61.  The contact of 6d is modelled
    by the same sum for every number of points. *)
Definition normal_force (k : kind) (s : cont) (f : vec K) : outcome cont K :=
  match k with
  | K2 => Ret s n0
  | _ => if vlen f =? nforce k then
           Ret s (nsum (npts k) (fun i => dot3 (k_n s) (mkVec 3 (fun j => vget f (3 * i + j)))))
         else Exc s
  end.
End Contacts.
Arguments cont : clear implicits.
Arguments cop : clear implicits.
