(** What the numbers in the HQP data must be after computeProblemData, stated from
    the data returned by the robot, tasks and contacts only.  Nothing here refers
    to the update code of the model. *)
From Coq Require Import String List Arith Bool ZArith.
From Verif Require Import Scalar Outcome Linalg Constraint Formulation FormSpec.
Import ListNotations.
Open Scope string_scope.
Open Scope list_scope.
Open Scope nat_scope.

Section DataSpec.
Context {K : num}.
Local Notation fst_ := (fstate K).

(** [M] is [m] in columns [j0, j0+n) and zero elsewhere. *)
Definition only_cols (M : mat K) (j0 n : nat) (m : mat K) : Prop :=
  forall i j, i < mrows M -> j < mcols M ->
    mget M i j = if (j0 <=? j) && (j <? j0 + n) then mget m i (j - j0) else n0.

(** Matrix and right-hand side a task constraint stands for; a bound is an
    identity matrix. *)
Definition block_of (n : nat) (c : constr K) : mat K :=
  match c_kind c with CBound => mident n n | _ => c_mat c end.
Definition same_rhs (k c : constr K) : Prop :=
  match c_kind c with CEq => c_vec k = c_vec c | _ => c_lb k = c_lb c /\ c_ub k = c_ub c end.

(** Sum of the joint torques of the measured forces present. *)
Definition ext_torque (e : env K) (l : list (nat * string)) (i : nat) : K :=
  fold_left (fun acc (m : nat * string) => (acc + vget (e_meas e (fst m)) i)%num) l n0.

(** Jacobian of the forces of contact object [o]: transposed force generator times
    motion matrix. *)
Definition jac (e : env K) (o r j : nat) : K :=
  nsum (mrows (e_gen e o)) (fun q => (mget (e_gen e o) q r * mget (fst (e_cmotion e o)) q j)%num).

(** Contact [c] (object [x]): its three constraints. *)
Definition contact_filled (s : fst_) (e : env K) (c : clevel) (x : cobj K) : Prop :=
  (exists k, nth_error (f_heap s) (cl_motion c) = Some k /\
     only_cols (c_mat k) 0 (f_nv s) (fst (e_cmotion e (cl_obj c))) /\
     c_vec k = snd (e_cmotion e (cl_obj c))) /\
  (exists k, nth_error (f_heap s) (cl_force c) = Some k /\
     only_cols (c_mat k) (f_nv s + cl_index c) (co_nforce x)
       (fst (fst (e_cforce e (cl_obj c) (co_fmin x) (co_fmax x)))) /\
     c_lb k = snd (fst (e_cforce e (cl_obj c) (co_fmin x) (co_fmax x))) /\
     c_ub k = snd (e_cforce e (cl_obj c) (co_fmin x) (co_fmax x))) /\
  (exists k, nth_error (f_heap s) (cl_reg c) = Some k /\
     only_cols (c_mat k) (f_nv s + cl_index c) (co_nforce x) (fst (e_creg e (cl_obj c))) /\
     c_vec k = snd (e_creg e (cl_obj c))).

(** Floating-base dynamics: [M_u | -J_u^T] x = -(h_u - external torque). *)
Definition base_filled (s : fst_) (e : env K) : Prop :=
  exists k, nth_error (f_heap s) (f_base s) = Some k /\
    (forall i j, i < f_nu s -> j < nVar s ->
       mget (c_mat k) i j = if j <? f_nv s then mget (e_mass e) i j
                            else (- mget (f_Jc s) (j - f_nv s) i)%num) /\
    vlen (c_vec k) = f_nu s /\
    (forall i, i < f_nu s -> vget (c_vec k) i = (- (vget (e_nle e) i - ext_torque e (f_meas s) i))%num).

Definition task_filled (s : fst_) (t : tlevel) (j0 n : nat) (c : constr K) : Prop :=
  exists k, nth_error (f_heap s) (tl_cstr t) = Some k /\
    is_eq (c_kind k) = is_eq (c_kind c) /\
    only_cols (c_mat k) j0 n (block_of n c) /\ same_rhs k c.

(** Actuation task: the task matrix applied to the actuated rows of the dynamics. *)
Definition act_mat (s : fst_) (e : env K) (c : constr K) (i j : nat) : K :=
  let na := f_nv s - f_nu s in
  let row (q : nat) : K := if j <? f_nv s then mget (e_mass e) (f_nu s + q) j
                 else mget (f_Jc s) (j - f_nv s) (f_nu s + q) in
  match c_kind c with
  | CBound => if j <? f_nv s then row i else (- row i)%num
  | _ => if j <? f_nv s then nsum na (fun q => (mget (c_mat c) i q * row q)%num)
         else nsum na (fun q => (- mget (c_mat c) i q * row q)%num)
  end.
Definition act_bias (s : fst_) (e : env K) (c : constr K) (i : nat) : K :=
  let na := f_nv s - f_nu s in
  let b q := (vget (e_nle e) (f_nu s + q) - ext_torque e (f_meas s) (f_nu s + q))%num in
  match c_kind c with
  | CBound => b i
  | _ => nsum na (fun q => (mget (c_mat c) i q * b q)%num)
  end.
Definition shifted (v w : vec K) (b : nat -> K) : Prop :=
  vlen v = vlen w /\ forall i, i < vlen w -> vget v i = (vget w i - b i)%num.
Definition act_filled (s : fst_) (e : env K) (t : tlevel) : Prop :=
  let c := e_task e (tl_task t) in
  exists k, nth_error (f_heap s) (tl_cstr t) = Some k /\
    is_eq (c_kind k) = is_eq (c_kind c) /\
    (c_kind c = CBound -> mrows (c_mat k) = f_nv s - f_nu s) /\
    (forall i j, i < mrows (c_mat k) -> j < nVar s -> mget (c_mat k) i j = act_mat s e c i j) /\
    match c_kind c with
    | CEq => shifted (c_vec k) (c_vec c) (act_bias s e c)
    | _ => shifted (c_lb k) (c_lb c) (act_bias s e c) /\ shifted (c_ub k) (c_ub c) (act_bias s e c)
    end.

Record data_ok (s : fst_) (e : env K) : Prop := mkData {
  dk_mass : f_mass s = e_mass e;
  dk_nle : f_nle s = e_nle e;
  dk_hfext : forall i, i < f_nv s -> vget (f_hfext s) i = ext_torque e (f_meas s) i;
  dk_J : forall c x r j, In c (f_contacts s) -> nth_error (f_objs s) (cl_obj c) = Some x ->
           r < co_nforce x -> j < f_nv s -> mget (f_Jc s) (cl_index c + r) j = jac e (cl_obj c) r j;
  dk_contact : forall c x, In c (f_contacts s) -> nth_error (f_objs s) (cl_obj c) = Some x ->
           contact_filled s e c x;
  dk_base : base_filled s e;
  dk_motion : forall t, In t (f_motions s) -> task_filled s t 0 (f_nv s) (e_task e (tl_task t));
  dk_force : forall t, In t (f_forces s) ->
           task_filled s t (fst (force_slot s (e_assoc e (tl_task t))))
                           (snd (force_slot s (e_assoc e (tl_task t)))) (e_task e (tl_task t));
  dk_act : forall t, In t (f_acts s) -> act_filled s e t }.

(** The force tasks are associated with the contacts given by [asc] during every
    computation. *)
Definition assoc_fixed (asc : nat -> string) (o : fop K) : Prop :=
  match o with OCompute _ e => forall id, e_assoc e id = asc id | _ => True end.

(** Equality of constraints as mathematical objects. *)
Definition ceq (c d : constr K) : Prop :=
  c_name c = c_name d /\ c_kind c = c_kind d /\ meq (c_mat c) (c_mat d) /\
  match c_kind c with
  | CEq => veq (c_vec c) (c_vec d)
  | _ => veq (c_lb c) (c_lb d) /\ veq (c_ub c) (c_ub d)
  end.
Definition entry_eq (a b : K * option (constr K)) : Prop :=
  fst a = fst b /\
  match snd a, snd b with Some c, Some d => ceq c d | None, None => True | _, _ => False end.
Definition hqp_eq (p q : list (list (K * option (constr K)))) : Prop :=
  Forall2 (Forall2 entry_eq) p q.

(** Same tasks, contacts and measured forces present, in the same order with the
    same weights and levels; the addresses of the constraints may differ. *)
Definition same_tasks (l l' : list tlevel) : Prop :=
  map (fun t => (tl_task t, tl_name t, tl_prio t)) l = map (fun t => (tl_task t, tl_name t, tl_prio t)) l'.
Definition same_present (s s' : fst_) : Prop :=
  f_nv s = f_nv s' /\ f_nu s = f_nu s' /\
  contact_objs s = contact_objs s' /\
  (forall o, In o (contact_objs s) -> nth_error (f_objs s) o = nth_error (f_objs s') o) /\
  same_tasks (f_motions s) (f_motions s') /\ same_tasks (f_forces s) (f_forces s') /\
  same_tasks (f_acts s) (f_acts s') /\ f_meas s = f_meas s' /\
  hqp_shapes s = hqp_shapes s'.

End DataSpec.
