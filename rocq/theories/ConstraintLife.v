(** The three constraint classes as objects: constructors and setters
    (constraint-base.cpp, constraint-equality.cpp, constraint-inequality.cpp,
    constraint-bound.cpp). *)
From Coq Require Import List Arith Bool String.
From Verif Require Import Scalar Outcome Linalg Constraint.
Import ListNotations.

Section Life.
Context {K : num}.

(** ConstraintEquality(name, A, b), constraint-equality.cpp:31-36.  In this and the
    next two definitions [None] is the exception of the size check. *)
Definition make_eq (name : string) (A : mat K) (b : vec K) : option (constr K) :=
  if mrows A =? vlen b then Some (mkConstr name CEq A b (vzero 0) (vzero 0)) else None.
(** ConstraintInequality(name, A, lb, ub), constraint-inequality.cpp:20-28. *)
Definition make_ineq (name : string) (A : mat K) (lb ub : vec K) : option (constr K) :=
  if mrows A =? vlen lb then
    if mrows A =? vlen ub then Some (mkConstr name CIneq A (vzero 0) lb ub) else None
  else None.
(** ConstraintBound(name, lb, ub), constraint-bound.cpp:19-27. *)
Definition make_bound (name : string) (lb ub : vec K) : option (constr K) :=
  if vlen lb =? vlen ub then Some (mkConstr name CBound (mident (vlen lb) (vlen lb)) (vzero 0) lb ub) else None.

(** The constructors with a name only (constraint-equality.cpp:23-24,
    constraint-inequality.cpp:10-11, constraint-bound.cpp:10-11): default constructed
    Eigen objects have size 0. *)
Definition bare (name : string) (kd : ckind) : constr K :=
  mkConstr name kd (mzero 0 0) (vzero 0) (vzero 0) (vzero 0).

(** The calls of a user that change the object. *)
Inductive ccall :=
| Resize (r c : nat)
| SetMatrix (m : mat K)
| SetVector (v : vec K)
| SetLowerBound (v : vec K)
| SetUpperBound (v : vec K).

(** resize: constraint-equality.cpp:47-50, constraint-inequality.cpp:40-44,
    constraint-bound.cpp:39-44 (void, shown as [true]; the only [None] of [cresize] is
    the exception of the bound).  setMatrix: constraint-base.cpp:26-33.  setVector,
    setLowerBound, setUpperBound: constraint-equality.cpp:76-87,
    constraint-inequality.cpp:64-75, constraint-bound.cpp:64-75; those a class does not
    have are assert(false); return false, so [nd] (NDEBUG) decides. *)
Definition cstep (nd : bool) (k : constr K) (o : ccall) : outcome (constr K) bool :=
  let lacks := if nd then Ret k false else Undef in
  match o with
  | Resize r c => match cresize k r c with Some k' => Ret k' true | None => Exc k end
  | SetMatrix m =>
      if mcols (c_mat k) =? mcols m then
        if mrows (c_mat k) =? mrows m then Ret (cset_mat k m) true else Exc k
      else Exc k
  | SetVector v => match cset_vec k v with Some k' => Ret k' true | None => lacks end
  | SetLowerBound v => match cset_lb k v with Some k' => Ret k' true | None => lacks end
  | SetUpperBound v => match cset_ub k v with Some k' => Ret k' true | None => lacks end
  end.
End Life.
Arguments ccall : clear implicits.
