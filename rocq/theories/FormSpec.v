(** Specification vocabulary for the formulation: what a user can observe through
    nVar/nEq/nIn, the HQP data and the contact force slots.  Nothing here refers
    to the update code of the model. *)
From Coq Require Import String List Arith Bool ZArith.
From Verif Require Import Scalar Outcome Linalg Constraint Formulation.
Import ListNotations.
Open Scope string_scope.
Open Scope list_scope.
Open Scope nat_scope.

Section Spec.
Context {K : num}.
Local Notation fst_ := (fstate K).

(** Shape of a weighted constraint as visible in the HQP data: weight, name, kind,
    number of rows and columns of its matrix. *)
Definition vshape := (K * (string * ckind * nat * nat))%type.
Definition shape (c : constr K) : string * ckind * nat * nat :=
  (c_name c, c_kind c, mrows (c_mat c), mcols (c_mat c)).

(** The HQP data as shapes, level by level ([None] would be a dangling pointer). *)
Definition hqp_shapes (s : fst_) : list (list (K * option (string * ckind * nat * nat))) :=
  map (map (fun e => (fst e, option_map shape (snd e)))) (hqp s).

(** Names of the constraints present in the HQP data. *)
Definition hqp_names (s : fst_) : list string :=
  map (fun e => name_at (f_heap s) (snd e)) (concat (f_hqp s)).

(** Total number of matrix rows of the constraints of a level that satisfy [p]. *)
Definition sum_nat (l : list nat) : nat := fold_right Nat.add 0 l.
Definition rows_if (p : ckind -> bool) (e : K * option (constr K)) : nat :=
  match snd e with
  | Some c => if p (c_kind c) then mrows (c_mat c) else 0
  | None => 0
  end.
Definition level_rows (p : ckind -> bool) (l : list (K * option (constr K))) : nat :=
  sum_nat (map (rows_if p) l).
Definition is_eq (k : ckind) : bool := match k with CEq => true | _ => false end.
Definition not_eq (k : ckind) : bool := negb (is_eq k).
Definition hard_eq_rows (s : fst_) : nat := level_rows is_eq (nth 0 (hqp s) []).
Definition hard_in_rows (s : fst_) : nat := level_rows not_eq (nth 0 (hqp s) []).

(** Force slots of the contacts present: (first index, size) in contact order. *)
Definition slots (s : fst_) : list (nat * nat) :=
  map (fun c => (cl_index c, cl_nforce s c)) (f_contacts s).
Fixpoint tiles (start : nat) (l : list (nat * nat)) (stop : nat) : Prop :=
  match l with
  | [] => start = stop
  | (o, n) :: l' => o = start /\ tiles (start + n) l' stop
  end.

(** Names the formulation reserves for its own constraints. *)
Definition reserved (n : string) : Prop :=
  n = "base-dynamics" \/
  exists x, n = (x ++ "_motion_task")%string \/ n = (x ++ "_force_constraint")%string \/
            n = (x ++ "_force_reg_task")%string.

Definition contact_names (s : fst_) : list string := map (cl_name s) (f_contacts s).

(** Usage rules for the name arguments: task names are not reserved and not in
    use, contact names are not in use; only tasks are removed with removeTask. *)
Definition names_ok (s : fst_) (o : fop K) : Prop :=
  match o with
  | OAddMotion _ n _ _ _ _ _ | OAddForce _ n _ _ _ _ _ | OAddAct _ n _ _ _ _ _ =>
      ~ reserved n /\ ~ In n (hqp_names s)
  | OAddContact o _ _ _ =>
      match nth_error (f_objs s) o with
      | Some x => ~ In (co_name x) (contact_names s)
      | None => True
      end
  | ORemTask n => ~ reserved n
  | _ => True
  end.

(** The call does not remove a hard (priority 0) force task. *)
Definition no_hard_force_removal (s : fst_) (o : fop K) : Prop :=
  match o with
  | ORemTask n => forall t, In t (f_forces s) -> tl_name t = n -> tl_prio t <> 0
  | _ => True
  end.

(** Contact objects present, in slot order. *)
Definition contact_objs (s : fst_) : list nat := map cl_obj (f_contacts s).

(** [l'] is [l] without one element satisfying [p]. *)
Definition drops_one {A} (p : A -> Prop) (l l' : list A) : Prop :=
  exists l1 x l2, l = l1 ++ x :: l2 /\ l' = l1 ++ l2 /\ p x.

(** [e] is the first entry, in level order, whose constraint has name [n], at
    position [j] of level [i] (levels from [i0] on). *)
Definition entry_name (e : K * option (constr K)) : option string := option_map c_name (snd e).
Definition first_at (i0 : nat) (n : string) (q : list (list (K * option (constr K)))) (i j : nat)
  : Prop :=
  i0 <= i /\
  (exists l e, nth_error q i = Some l /\ nth_error l j = Some e /\ entry_name e = Some n) /\
  (forall i' j' l e, i0 <= i' -> nth_error q i' = Some l -> nth_error l j' = Some e ->
     entry_name e = Some n -> i < i' \/ (i = i' /\ j <= j')).
Definition absent_from (i0 : nat) (n : string) (q : list (list (K * option (constr K)))) : Prop :=
  forall i l e, i0 <= i -> nth_error q i = Some l -> In e l -> entry_name e <> Some n.

(** Replace / delete the entry at position [j] of level [i]. *)
Definition put_at {A} (q : list (list A)) (i j : nat) (x : A) : list (list A) :=
  match nth_error q i with Some l => lupd q i (lupd l j x) | None => q end.
Definition del_at {A} (q : list (list A)) (i j : nat) : list (list A) :=
  match nth_error q i with
  | Some l => lupd q i (firstn j l ++ skipn (S j) l)
  | None => q
  end.

(** updateRigidContactWeights should change the weight of the force-regularisation
    entry to [wf] and of the motion entry to [wm], each only if non-negative, in
    the levels 1 and up. *)
Definition reweight (n : string) (wf wm : K) (e : K * option (constr K)) : K * option (constr K) :=
  match entry_name e with
  | Some m =>
      if String.eqb m (n ++ "_force_reg_task") && (n0 <=? wf)%num then (wf, snd e)
      else if String.eqb m (n ++ "_motion_task") && (n0 <=? wm)%num then (wm, snd e)
      else e
  | None => e
  end.
Definition reweight_soft n wf wm (q : list (list (K * option (constr K)))) :=
  match q with [] => [] | l0 :: ls => l0 :: map (map (reweight n wf wm)) ls end.

(** Names of the entries of the soft levels (1 and up). *)
Definition soft_has (m : string) (q : list (list (K * option (constr K)))) : Prop :=
  exists e, In e (concat (tl q)) /\ entry_name e = Some m.

(** ** Well-formed data returned by tasks, contacts and the robot *)

(** rows() is consistent with the matrix (no size assertion fails). *)
Definition sized (c : constr K) : Prop := crows c = Some (mrows (c_mat c)).

(** Contact [o], with object [x], returns data of the sizes it announced. *)
Definition contact_data_ok (nv : nat) (e : env K) (o : nat) (x : cobj K) : Prop :=
  let '(A, b) := e_cmotion e o in
  let '(C, d) := e_creg e o in
  mrows A = co_mrows x /\ mcols A = nv /\ vlen b = co_mrows x /\
  mrows (e_gen e o) = co_mrows x /\ mcols (e_gen e o) = co_nforce x /\
  (forall fmin fmax, let '(B, lb, ub) := e_cforce e o fmin fmax in
     mrows B = co_frows x /\ mcols B = co_nforce x /\ vlen lb = co_frows x /\ vlen ub = co_frows x) /\
  mrows C = co_rrows x /\ mcols C = co_nforce x /\ vlen d = co_rrows x.

(** A task returns a constraint of the kind and size it announced when added,
    acting on [n] variables. *)
Definition task_data_ok (kd : ckind) (r n : nat) (c : constr K) : Prop :=
  is_eq (c_kind c) = is_eq kd /\ crows c = Some r /\
  match c_kind c with CBound => r = n | _ => mcols (c_mat c) = n end.

(** Number of force variables a force task acts on. *)
Definition force_size (s : fst_) (assoc : string) : nat := snd (force_slot s assoc).

(** Kind and number of rows with which a task was added. *)
Definition announced (s : fst_) (t : tlevel) (kd : ckind) (r : nat) : Prop :=
  exists c, nth_error (f_heap s) (tl_cstr t) = Some c /\ c_kind c = kd /\ mrows (c_mat c) = r.

Definition env_ok (s : fst_) (e : env K) : Prop :=
  let nv := f_nv s in
  mrows (e_mass e) = nv /\ mcols (e_mass e) = nv /\ vlen (e_nle e) = nv /\
  (forall c x, In c (f_contacts s) -> nth_error (f_objs s) (cl_obj c) = Some x ->
     contact_data_ok nv e (cl_obj c) x) /\
  (forall m, In m (f_meas s) -> vlen (e_meas e (fst m)) = nv) /\
  (forall t kd r, In t (f_motions s) -> announced s t kd r ->
     task_data_ok kd r nv (e_task e (tl_task t))) /\
  (forall t kd r, In t (f_forces s) -> announced s t kd r ->
     task_data_ok kd r (force_size s (e_assoc e (tl_task t))) (e_task e (tl_task t))) /\
  (forall t kd r, In t (f_acts s) -> announced s t kd r ->
     task_data_ok kd r (nv - f_nu s) (e_task e (tl_task t))).

End Spec.
