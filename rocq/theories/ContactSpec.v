(** Geometry of contacts in R^3, independent of the contact classes. *)
From Coq Require Import List Arith Bool Reals.
From Verif Require Import Scalar Outcome Linalg Constraint FormPhysSpec.
Open Scope nat_scope.

Definition dot (a b : nat -> R) : R := (a 0%nat * b 0%nat + a 1%nat * b 1%nat + a 2%nat * b 2%nat)%R.
Definition crs (a b : nat -> R) : nat -> R := fun i =>
  match i with
  | 0 => (a 1%nat * b 2%nat - a 2%nat * b 1%nat)%R
  | 1 => (a 2%nat * b 0%nat - a 0%nat * b 2%nat)%R
  | _ => (a 0%nat * b 1%nat - a 1%nat * b 0%nat)%R
  end.
(** Two unit tangents, orthogonal to each other and to the normal. *)
Definition frame (n t1 t2 : nat -> R) : Prop :=
  dot t1 t1 = 1%R /\ dot t2 t2 = 1%R /\ dot t1 t2 = 0%R /\ dot n t1 = 0%R /\ dot n t2 = 0%R.
(** Force at point [i] of the stacked point forces [f]. *)
Definition at_point (f : nat -> R) (i : nat) : nat -> R := fun j => f (3 * i + j).
(** Linearised friction cone. *)
Definition pyramid (n t1 t2 : nat -> R) (mu : R) (g : nat -> R) : Prop :=
  (Rabs (dot t1 g) <= mu * dot n g)%R /\ (Rabs (dot t2 g) <= mu * dot n g)%R.
Definition total_normal (np : nat) (n f : nat -> R) : R := @nsum Rnum np (fun i => dot n (at_point f i)).
Definition friction_ok (np : nat) (n t1 t2 : nat -> R) (mu fmin fmax : R) (f : nat -> R) : Prop :=
  (forall i, i < np -> pyramid n t1 t2 mu (at_point f i)) /\ (fmin <= total_normal np n f <= fmax)%R.

(** Same constraint, entry by entry. *)
Definition ceq {K : num} (a b : constr K) : Prop :=
  c_name a = c_name b /\ c_kind a = c_kind b /\ meq (c_mat a) (c_mat b) /\
  veq (c_vec a) (c_vec b) /\ veq (c_lb a) (c_lb b) /\ veq (c_ub a) (c_ub b).

(** Resultant force, resultant moment about the origin, moment about [c]. *)
Definition resultant (np : nat) (f : nat -> R) : nat -> R := fun a => @nsum Rnum np (fun i => at_point f i a).
Definition moment (np : nat) (p : nat -> nat -> R) (f : nat -> R) : nat -> R :=
  fun a => @nsum Rnum np (fun i => crs (p i) (at_point f i) a).
Definition moment_at (np : nat) (p : nat -> nat -> R) (f c : nat -> R) : nat -> R :=
  fun a => @nsum Rnum np (fun i => crs (fun b => p i b - c b)%R (at_point f i) a).
(** [c] lies in the plane n.x = h and the contact forces have no tangential moment
    about it. *)
Definition centre_of_pressure (np : nat) (p : nat -> nat -> R) (n : nat -> R) (h : R) (f c : nat -> R) : Prop :=
  dot n c = h /\ forall a, a < 3 -> crs n (moment_at np p f c) a = 0%R.
(** [c] is a convex combination of the points. *)
Definition in_hull (np : nat) (p : nat -> nat -> R) (c : nat -> R) : Prop :=
  exists l : nat -> R, (forall i, i < np -> (0 <= l i)%R) /\ @nsum Rnum np l = 1%R /\
    forall a, a < 3 -> c a = @nsum Rnum np (fun i => (l i * p i a)%R).

(** Wrench of the stacked point forces: the columns of [P] are the points. *)
Definition wrench (six : bool) (P : mat Rnum) (f : nat -> R) (r : nat) : R :=
  if six then if r <? 3 then resultant 4 f r else moment 4 (fun i a => mget P a i) f (r - 3)
  else f r.
(** [c] asks for weight * wrench = weight * reference in every row. *)
Definition asks_wrench (six : bool) (nr : nat) (P : mat Rnum) (w fref : nat -> R) (c : constr Rnum) : Prop :=
  c_kind c = CEq /\ mrows (c_mat c) = nr /\ vlen (c_vec c) = nr /\
  forall f r, r < nr -> lhs c f r = (w r * wrench six P f r)%R /\ vget (c_vec c) r = (w r * fref r)%R.
