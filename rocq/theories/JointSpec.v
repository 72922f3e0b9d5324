(** One joint under constant acceleration; what a joint can still do. *)
From Coq Require Import Reals.
Open Scope R_scope.

(** Position and velocity after [t] seconds of acceleration [a]. *)
Definition pos_at (q v a t : R) : R := q + v * t + a * (t * t) / 2.
Definition vel_at (v a t : R) : R := v + a * t.
(** Inside the limits at every instant of [0,T]. *)
Definition stays (qmin qmax q v a T : R) : Prop := forall t, 0 <= t <= T -> qmin <= pos_at q v a t <= qmax.
(** The joint can be brought to rest without leaving the limits, decelerating by at
    most [A]. *)
Definition stoppable (A qmin qmax q v : R) : Prop :=
  exists a T, - A <= a <= A /\ 0 <= T /\ vel_at v a T = 0 /\ stays qmin qmax q v a T.
