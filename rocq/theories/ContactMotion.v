(** Motion tasks of the contacts: src/contacts/contact-6d.cpp ("6d"),
    src/contacts/contact-point.cpp ("point"), src/contacts/contact-two-frame-positions.cpp
    ("two").  Each contact owns a TaskSE3Equality or TaskTwoFramesEquality and forwards to
    it; getMotionTask() is const, so nothing else changes the task.  The parts about forces
    are in Contacts.v. *)
From Coq Require Import String List Arith Bool ZArith.
From Verif Require Import Scalar Outcome Linalg Constraint FrameTasks.
Import ListNotations.
Open Scope nat_scope.

Section CM.
Context {K : num}.
Variable toZ : K -> Z.
Variable log3 : (nat -> nat -> K) -> nat -> K.
(** Calls of Contact6d and ContactPoint.  [jk]: contents of the local Vector6 (point:116,
    point:124, two:102, two:109) of which only the first three entries are assigned. *)
Inductive mop := MKp (jk v : vec K) | MKd (jk v : vec K) | MRef (R : nat -> nat -> K) (p : nat -> K) | MLocal (b : bool) | MCompute (d : fdata K).
(** Contact6d: m_motionTask of all components (6d:22), Kp and Kd (6d:135-136),
    setReference (6d:199), computeMotionTask (6d:201-206).  There is no useLocalFrame. *)
Definition six_new (jk : vec K) (name : string) (nv : nat) : option (se3t K) := se3_new toZ jk name nv.
Definition six_step (s : se3t K) (o : mop) : outcome (se3t K) unit :=
  match o with
  | MKp _ v => se3_step toZ log3 s (XKp v)
  | MKd _ v => se3_step toZ log3 s (XKd v)
  | MRef R p => se3_step toZ log3 s (XRefSE3 R p)
  | MLocal _ => Ret s tt
  | MCompute d => se3_step toZ log3 s (XCompute d)
  end.
(** The mask of point:39-41 and two:43-45. *)
Definition lin_mask : vec K := mkVec 6 (fun i => if i <? 3 then n1 else n0).
(** ContactPoint: constructor point:24,39-41; Kp and Kd (point:113-127),
    useLocalFrame (point:44-46), setReference (point:178-180), computeMotionTask
    (point:182-187). *)
Definition point_new (jk jk' : vec K) (name : string) (nv : nat) : option (se3t K) :=
  do s <- se3_new toZ jk name nv; after (se3_step toZ log3 s (XMask jk' lin_mask)).
Definition pad3 (jk v : vec K) : vec K := mkVec 6 (fun i => if i <? 3 then vget v i else vget jk i).
Definition point_step (s : se3t K) (o : mop) : outcome (se3t K) unit :=
  match o with
  | MKp jk v => if vlen v =? 3 then se3_step toZ log3 s (XKp (pad3 jk v)) else Exc s
  | MKd jk v => if vlen v =? 3 then se3_step toZ log3 s (XKd (pad3 jk v)) else Exc s
  | MRef R p => se3_step toZ log3 s (XRefSE3 R p)
  | MLocal b => se3_step toZ log3 s (XLocal b)
  | MCompute d => se3_step toZ log3 s (XCompute d)
  end.
(** Kp() and Kd(): point:103-111, two:90-98 (head<3>), 6d:133-134. *)
Definition head3 (v : vec K) : option (vec K) := if 3 <=? vlen v then Some (mkVec 3 (vget v)) else None.
(** n_motion(): 6d:130, point:100, two:85-87 (dim() of the task is the sum of its mask). *)
Definition n_motion (six : bool) (m : vec K) : Z := if six then 6%Z else toZ (nsum (vlen m) (vget m)).

(** ContactTwoFramePositions: constructor two:21-25,43-45; Kp and Kd (two:100-112) only assert
    the size; computeMotionTask (two:140-143). *)
Inductive twop := WKp (jk v : vec K) | WKd (jk v : vec K) | WCompute (d1 d2 : fdata K).
Definition two_new (jk jk' : vec K) (name : string) (nv : nat) : option (tft K) :=
  do s <- tf_new toZ jk name nv; after (tf_step toZ log3 s (YMask jk' lin_mask)).
Definition two_step (s : tft K) (o : twop) : outcome (tft K) unit :=
  match o with
  | WKp jk v => if vlen v =? 3 then tf_step toZ log3 s (YKp (pad3 jk v)) else Undef
  | WKd jk v => if vlen v =? 3 then tf_step toZ log3 s (YKd (pad3 jk v)) else Undef
  | WCompute d1 d2 => tf_step toZ log3 s (YCompute d1 d2)
  end.
End CM.
Arguments mop : clear implicits.
Arguments twop : clear implicits.
