(** What the computed problem and the decoded solution mean for the robot, over
    the reals.  The quantities below are defined from the data returned by the
    robot, the tasks and the contacts, and from the list of what is present. *)
From Coq Require Import String List Arith Bool ZArith Reals.
From Verif Require Import Scalar Outcome Linalg Constraint Formulation FormSpec FormDataSpec.
Import ListNotations.
Open Scope string_scope.
Open Scope list_scope.
Open Scope nat_scope.

Section PhysSpec.
Local Notation fst_ := (fstate Rnum).
Local Notation rsum := (@nsum Rnum).

Definition lsum {A} (f : A -> R) (l : list A) : R := fold_right Rplus 0%R (map f l).

(** Left-hand side of row [i] of a constraint and satisfaction by the variables
    [y]: A y = b, lb <= A y <= ub, or lb <= y <= ub. *)
Definition lhs (c : constr Rnum) (y : nat -> R) (i : nat) : R :=
  match c_kind c with
  | CBound => y i
  | _ => rsum (mcols (c_mat c)) (fun j => mget (c_mat c) i j * y j)%R
  end.
Definition sat (c : constr Rnum) (y : nat -> R) : Prop :=
  match c_kind c with
  | CEq => forall i, i < vlen (c_vec c) -> lhs c y i = vget (c_vec c) i
  | _ => forall i, i < vlen (c_lb c) -> (vget (c_lb c) i <= lhs c y i <= vget (c_ub c) i)%R
  end.

(** [x] satisfies every constraint of level 0 of the HQP data. *)
Definition hard_feasible (s : fst_) (x : nat -> R) : Prop :=
  forall en c, In en (nth 0 (hqp s) []) -> snd en = Some c -> sat c x.

(** Force of contact [c] inside the variable vector. *)
Definition force_of (s : fst_) (c : clevel) (x : nat -> R) : nat -> R :=
  fun r => x (f_nv s + cl_index c + r).

(** Generalised force of all the contacts, and the right-hand side of the equations
    of motion: M dv + h - (external torque) - sum of J_c^T f_c. *)
Definition contact_torque (s : fst_) (e : env Rnum) (x : nat -> R) (i : nat) : R :=
  lsum (fun c => rsum (cl_nforce s c) (fun r => jac e (cl_obj c) r i * force_of s c x r)%R) (f_contacts s).
Definition meas_torque (s : fst_) (e : env Rnum) (i : nat) : R :=
  lsum (fun m : nat * string => vget (e_meas e (fst m)) i) (f_meas s).
Definition needed_torque (s : fst_) (e : env Rnum) (x : nat -> R) (i : nat) : R :=
  (rsum (f_nv s) (fun j => mget (e_mass e) i j * x j) + vget (e_nle e) i
   - meas_torque s e i - contact_torque s e x i)%R.

(** Motion constraint of a contact is hard. *)
Definition hard_motion (s : fst_) (c : clevel) : Prop :=
  exists en, In en (nth 0 (hqp s) []) /\ entry_name en = Some (cl_name s c ++ "_motion_task")%string.

Definition eq_holds (A : mat Rnum) (b : vec Rnum) (y : nat -> R) : Prop :=
  forall i, i < vlen b -> rsum (mcols A) (fun j => mget A i j * y j)%R = vget b i.
Definition in_holds (A : mat Rnum) (lb ub : vec Rnum) (y : nat -> R) : Prop :=
  forall i, i < vlen lb -> (vget lb i <= rsum (mcols A) (fun j => mget A i j * y j)%R <= vget ub i)%R.

(** Physical feasibility: unactuated joints need no torque; hard contacts do not
    move; contact forces are admissible; hard tasks hold for the accelerations,
    contact forces and joint torques. *)
Record physical (s : fst_) (e : env Rnum) (x : nat -> R) : Prop := mkPhys {
  ph_base : forall i, i < f_nu s -> needed_torque s e x i = 0%R;
  ph_motion : forall c, In c (f_contacts s) -> hard_motion s c ->
     eq_holds (fst (e_cmotion e (cl_obj c))) (snd (e_cmotion e (cl_obj c))) x;
  ph_force : forall c o, In c (f_contacts s) -> nth_error (f_objs s) (cl_obj c) = Some o ->
     let '(B, lb, ub) := e_cforce e (cl_obj c) (co_fmin o) (co_fmax o) in
     in_holds B lb ub (force_of s c x);
  ph_mtask : forall t, In t (f_motions s) -> tl_prio t = 0 -> sat (e_task e (tl_task t)) x;
  ph_ftask : forall t, In t (f_forces s) -> tl_prio t = 0 ->
     sat (e_task e (tl_task t)) (fun r => x (fst (force_slot s (e_assoc e (tl_task t))) + r));
  ph_atask : forall t, In t (f_acts s) -> tl_prio t = 0 ->
     sat (e_task e (tl_task t)) (fun q => needed_torque s e x (f_nu s + q)) }.

End PhysSpec.
