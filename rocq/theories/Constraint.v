(** Constraints of an HQP: src/math/constraint-base.cpp, constraint-equality.cpp,
    constraint-inequality.cpp, constraint-bound.cpp. *)
From Coq Require Import List Arith Bool String.
From Verif Require Import Scalar Outcome Linalg.
Import ListNotations.

Section Constraint.
Context {K : num}.

(** isEquality / isInequality / isBound of the three classes
    (constraint-equality.cpp:52-54, constraint-inequality.cpp:46-48,
    constraint-bound.cpp:46-48). *)
Inductive ckind := CEq | CIneq | CBound.

Definition ckind_eqb (a b : ckind) : bool :=
  match a, b with CEq, CEq => true | CIneq, CIneq => true | CBound, CBound => true | _, _ => false end.

(** One record for the three classes: [c_vec] is m_b of ConstraintEquality, [c_lb]
    and [c_ub] are m_lb/m_ub of ConstraintInequality and ConstraintBound.  The
    fields a class does not have are never read or written by the operations. *)
Record constr := mkConstr {
  c_name : string;
  c_kind : ckind;
  c_mat : mat K;
  c_vec : vec K;
  c_lb : vec K;
  c_ub : vec K }.

(** ConstraintEquality(name, rows, cols), constraint-equality.cpp:26-29 with
    constraint-base.cpp:11-15. *)
Definition new_eq (name : string) (rows cols : nat) : constr :=
  mkConstr name CEq (mzero rows cols) (vzero rows) (vzero 0) (vzero 0).
(** ConstraintInequality(name, rows, cols), constraint-inequality.cpp:13-18. *)
Definition new_ineq (name : string) (rows cols : nat) : constr :=
  mkConstr name CIneq (mzero rows cols) (vzero 0) (vzero rows) (vzero rows).
(** ConstraintBound(name, size), constraint-bound.cpp:13-17. *)
Definition new_bound (name : string) (size : nat) : constr :=
  mkConstr name CBound (mident size size) (vzero 0) (vzero size) (vzero size).

(** rows(): constraint-equality.cpp:38-41, constraint-inequality.cpp:30-34,
    constraint-bound.cpp:29-32 (the asserts on the sizes are checked). *)
Definition crows (c : constr) : option nat :=
  match c_kind c with
  | CEq => if mrows (c_mat c) =? vlen (c_vec c) then Some (mrows (c_mat c)) else None
  | CIneq => if (mrows (c_mat c) =? vlen (c_lb c)) && (mrows (c_mat c) =? vlen (c_ub c))
             then Some (mrows (c_mat c)) else None
  | CBound => if vlen (c_lb c) =? vlen (c_ub c) then Some (vlen (c_lb c)) else None
  end.
(** cols(): constraint-equality.cpp:43-45, constraint-inequality.cpp:36-38,
    constraint-bound.cpp:34-37. *)
Definition ccols (c : constr) : option nat :=
  match c_kind c with
  | CBound => if vlen (c_lb c) =? vlen (c_ub c) then Some (vlen (c_lb c)) else None
  | _ => Some (mcols (c_mat c))
  end.

(** resize(r,c): constraint-equality.cpp:47-50, constraint-inequality.cpp:40-44,
    constraint-bound.cpp:39-44 (the bound version throws unless r = c; the
    formulation never stores a ConstraintBound, so the throw is folded into
    [None] here). *)
Definition cresize (k : constr) (r c : nat) : option constr :=
  match c_kind k with
  | CEq => Some (mkConstr (c_name k) CEq (mzero r c) (vzero r) (c_lb k) (c_ub k))
  | CIneq => Some (mkConstr (c_name k) CIneq (mzero r c) (c_vec k) (vzero r) (vzero r))
  | CBound => if r =? c
              then Some (mkConstr (c_name k) CBound (mident r c) (c_vec k) (vzero r) (vzero r))
              else None
  end.

(** matrix() = m (through the mutable reference, constraint-base.cpp:24). *)
Definition cset_mat (k : constr) (m : mat K) : constr :=
  mkConstr (c_name k) (c_kind k) m (c_vec k) (c_lb k) (c_ub k).
(** vector() = v: only ConstraintEquality (assert(false) in the others,
    constraint-inequality.cpp:57-60, constraint-bound.cpp:57-60).  Assigning to a
    dynamic Eigen vector resizes it, so there is no size check. *)
Definition cset_vec (k : constr) (v : vec K) : option constr :=
  match c_kind k with
  | CEq => Some (mkConstr (c_name k) CEq (c_mat k) v (c_lb k) (c_ub k))
  | _ => None
  end.
(** lowerBound() = v, upperBound() = v: not ConstraintEquality (assert(false),
    constraint-equality.cpp:67-74). *)
Definition cset_lb (k : constr) (v : vec K) : option constr :=
  match c_kind k with
  | CEq => None
  | kd => Some (mkConstr (c_name k) kd (c_mat k) (c_vec k) v (c_ub k))
  end.
Definition cset_ub (k : constr) (v : vec K) : option constr :=
  match c_kind k with
  | CEq => None
  | kd => Some (mkConstr (c_name k) kd (c_mat k) (c_vec k) (c_lb k) v)
  end.

End Constraint.
Arguments constr : clear implicits.
