(** Model of InverseDynamicsFormulationAccForce,
    src/formulations/inverse-dynamics-formulation-acc-force.cpp (abbreviated
    "idf" in the citations below).

    Simplifications, common to all definitions:
    - std::shared_ptr<ConstraintBase> is an address in an append-only heap
      [f_heap]; nothing is ever freed.
    - user objects (tasks, contacts, measured forces) are numbers; what their
      virtual methods return during a computation is given by an environment
      [env] passed to [OCompute], hence universally quantified in theorems.
    - contact objects keep the fields that the formulation reads or writes
      ([cobj]); they can be created and changed by the user at any time
      ([ONewContact], [OSetFMin], [OSetFMax]).
    - printing is dropped.
    - [dbg] tells whether assert() is active (no NDEBUG). Eigen size checks and
      out-of-range accesses are [Undef] in both builds. *)
From Coq Require Import List Arith Bool String ZArith QArith.
From Verif Require Import Scalar Outcome Linalg Constraint.
Import ListNotations.
Open Scope string_scope.
Open Scope list_scope.
Open Scope nat_scope.

Section Formulation.
Context {K : num}.
Variable dbg : bool.

(** assert(b) *)
Definition assert_ (b : bool) : option unit := if dbg then guard b else Some tt.

(** The part of a ContactBase object used by the formulation: n_force(), the row
    counts of its three constraints, its normal force limits and getNormalForce.
    [co_checks] is true for Contact6d and ContactPoint, whose setters validate
    their argument (contact-6d.cpp:171-192, contact-point.cpp:148-169), false for
    ContactTwoFramePositions (contact-two-frame-positions.cpp:123-133). *)
Record cobj := mkCobj {
  co_name : string;
  co_nforce : nat;
  co_mrows : nat;      (* getMotionConstraint().rows() *)
  co_frows : nat;      (* getForceConstraint().rows() *)
  co_rrows : nat;      (* getForceRegularizationTask().rows() *)
  co_checks : bool;
  co_fmin : K;
  co_fmax : K;
  co_nf : vec K -> K   (* getNormalForce *) }.

Definition set_fmin (c : cobj) (f : K) : cobj :=
  mkCobj (co_name c) (co_nforce c) (co_mrows c) (co_frows c) (co_rrows c) (co_checks c)
         f (co_fmax c) (co_nf c).
Definition set_fmax (c : cobj) (f : K) : cobj :=
  mkCobj (co_name c) (co_nforce c) (co_mrows c) (co_frows c) (co_rrows c) (co_checks c)
         (co_fmin c) f (co_nf c).

(** ContactLevel, include/tsid/formulations/contact-level.hpp:20-31. *)
Record clevel := mkCl {
  cl_obj : nat; cl_index : nat; cl_motion : nat; cl_force : nat; cl_reg : nat }.
(** TaskLevel / TaskLevelForce, inverse-dynamics-formulation-base.hpp:28-46.
    [tl_name] is task.name() (tasks/task-base.cpp:14); here names are the ones given at
    construction, renaming an object is modelled in FormNames.v. *)
Record tlevel := mkTl { tl_task : nat; tl_name : string; tl_prio : nat; tl_cstr : nat }.
(** ContactTransitionInfo, inverse-dynamics-formulation-acc-force.hpp:17-25; only
    the contact object of the referenced level is ever used. *)
Record ctrans := mkTr { tr_obj : nat; tr_t0 : K; tr_t1 : K; tr_f0 : K; tr_f1 : K }.

(** Object state: fields of inverse-dynamics-formulation-acc-force.hpp:108-131,
    plus the contact objects of the user program. [f_mass], [f_nle] are
    m_robot.mass(m_data) and m_robot.nonLinearEffects(m_data). *)
Record fstate := mkF {
  f_nv : nat; f_nu : nat;
  f_t : K;
  f_k : nat;
  f_eq : Z; f_in : Z;
  f_heap : list (constr K);
  f_hqp : list (list (K * nat));
  f_base : nat;
  f_contacts : list clevel;
  f_motions : list tlevel;
  f_forces : list tlevel;
  f_acts : list tlevel;
  f_meas : list (nat * string);
  f_trans : list ctrans;
  f_objs : list cobj;
  f_Jc : mat K;
  f_hfext : vec K;
  f_mass : mat K; f_nle : vec K;
  f_dec : bool;
  f_dv : vec K; f_f : vec K; f_tau : vec K }.

(** Field updates. *)
Definition w_t s x := mkF (f_nv s) (f_nu s) x (f_k s) (f_eq s) (f_in s) (f_heap s) (f_hqp s) (f_base s) (f_contacts s) (f_motions s) (f_forces s) (f_acts s) (f_meas s) (f_trans s) (f_objs s) (f_Jc s) (f_hfext s) (f_mass s) (f_nle s) (f_dec s) (f_dv s) (f_f s) (f_tau s).
Definition w_k s x := mkF (f_nv s) (f_nu s) (f_t s) x (f_eq s) (f_in s) (f_heap s) (f_hqp s) (f_base s) (f_contacts s) (f_motions s) (f_forces s) (f_acts s) (f_meas s) (f_trans s) (f_objs s) (f_Jc s) (f_hfext s) (f_mass s) (f_nle s) (f_dec s) (f_dv s) (f_f s) (f_tau s).
Definition w_eq s x := mkF (f_nv s) (f_nu s) (f_t s) (f_k s) x (f_in s) (f_heap s) (f_hqp s) (f_base s) (f_contacts s) (f_motions s) (f_forces s) (f_acts s) (f_meas s) (f_trans s) (f_objs s) (f_Jc s) (f_hfext s) (f_mass s) (f_nle s) (f_dec s) (f_dv s) (f_f s) (f_tau s).
Definition w_in s x := mkF (f_nv s) (f_nu s) (f_t s) (f_k s) (f_eq s) x (f_heap s) (f_hqp s) (f_base s) (f_contacts s) (f_motions s) (f_forces s) (f_acts s) (f_meas s) (f_trans s) (f_objs s) (f_Jc s) (f_hfext s) (f_mass s) (f_nle s) (f_dec s) (f_dv s) (f_f s) (f_tau s).
Definition w_heap s x := mkF (f_nv s) (f_nu s) (f_t s) (f_k s) (f_eq s) (f_in s) x (f_hqp s) (f_base s) (f_contacts s) (f_motions s) (f_forces s) (f_acts s) (f_meas s) (f_trans s) (f_objs s) (f_Jc s) (f_hfext s) (f_mass s) (f_nle s) (f_dec s) (f_dv s) (f_f s) (f_tau s).
Definition w_hqp s x := mkF (f_nv s) (f_nu s) (f_t s) (f_k s) (f_eq s) (f_in s) (f_heap s) x (f_base s) (f_contacts s) (f_motions s) (f_forces s) (f_acts s) (f_meas s) (f_trans s) (f_objs s) (f_Jc s) (f_hfext s) (f_mass s) (f_nle s) (f_dec s) (f_dv s) (f_f s) (f_tau s).
Definition w_contacts s x := mkF (f_nv s) (f_nu s) (f_t s) (f_k s) (f_eq s) (f_in s) (f_heap s) (f_hqp s) (f_base s) x (f_motions s) (f_forces s) (f_acts s) (f_meas s) (f_trans s) (f_objs s) (f_Jc s) (f_hfext s) (f_mass s) (f_nle s) (f_dec s) (f_dv s) (f_f s) (f_tau s).
Definition w_motions s x := mkF (f_nv s) (f_nu s) (f_t s) (f_k s) (f_eq s) (f_in s) (f_heap s) (f_hqp s) (f_base s) (f_contacts s) x (f_forces s) (f_acts s) (f_meas s) (f_trans s) (f_objs s) (f_Jc s) (f_hfext s) (f_mass s) (f_nle s) (f_dec s) (f_dv s) (f_f s) (f_tau s).
Definition w_forces s x := mkF (f_nv s) (f_nu s) (f_t s) (f_k s) (f_eq s) (f_in s) (f_heap s) (f_hqp s) (f_base s) (f_contacts s) (f_motions s) x (f_acts s) (f_meas s) (f_trans s) (f_objs s) (f_Jc s) (f_hfext s) (f_mass s) (f_nle s) (f_dec s) (f_dv s) (f_f s) (f_tau s).
Definition w_acts s x := mkF (f_nv s) (f_nu s) (f_t s) (f_k s) (f_eq s) (f_in s) (f_heap s) (f_hqp s) (f_base s) (f_contacts s) (f_motions s) (f_forces s) x (f_meas s) (f_trans s) (f_objs s) (f_Jc s) (f_hfext s) (f_mass s) (f_nle s) (f_dec s) (f_dv s) (f_f s) (f_tau s).
Definition w_meas s x := mkF (f_nv s) (f_nu s) (f_t s) (f_k s) (f_eq s) (f_in s) (f_heap s) (f_hqp s) (f_base s) (f_contacts s) (f_motions s) (f_forces s) (f_acts s) x (f_trans s) (f_objs s) (f_Jc s) (f_hfext s) (f_mass s) (f_nle s) (f_dec s) (f_dv s) (f_f s) (f_tau s).
Definition w_trans s x := mkF (f_nv s) (f_nu s) (f_t s) (f_k s) (f_eq s) (f_in s) (f_heap s) (f_hqp s) (f_base s) (f_contacts s) (f_motions s) (f_forces s) (f_acts s) (f_meas s) x (f_objs s) (f_Jc s) (f_hfext s) (f_mass s) (f_nle s) (f_dec s) (f_dv s) (f_f s) (f_tau s).
Definition w_objs s x := mkF (f_nv s) (f_nu s) (f_t s) (f_k s) (f_eq s) (f_in s) (f_heap s) (f_hqp s) (f_base s) (f_contacts s) (f_motions s) (f_forces s) (f_acts s) (f_meas s) (f_trans s) x (f_Jc s) (f_hfext s) (f_mass s) (f_nle s) (f_dec s) (f_dv s) (f_f s) (f_tau s).
Definition w_Jc s x := mkF (f_nv s) (f_nu s) (f_t s) (f_k s) (f_eq s) (f_in s) (f_heap s) (f_hqp s) (f_base s) (f_contacts s) (f_motions s) (f_forces s) (f_acts s) (f_meas s) (f_trans s) (f_objs s) x (f_hfext s) (f_mass s) (f_nle s) (f_dec s) (f_dv s) (f_f s) (f_tau s).
Definition w_hfext s x := mkF (f_nv s) (f_nu s) (f_t s) (f_k s) (f_eq s) (f_in s) (f_heap s) (f_hqp s) (f_base s) (f_contacts s) (f_motions s) (f_forces s) (f_acts s) (f_meas s) (f_trans s) (f_objs s) (f_Jc s) x (f_mass s) (f_nle s) (f_dec s) (f_dv s) (f_f s) (f_tau s).
Definition w_dyn s m h := mkF (f_nv s) (f_nu s) (f_t s) (f_k s) (f_eq s) (f_in s) (f_heap s) (f_hqp s) (f_base s) (f_contacts s) (f_motions s) (f_forces s) (f_acts s) (f_meas s) (f_trans s) (f_objs s) (f_Jc s) (f_hfext s) m h (f_dec s) (f_dv s) (f_f s) (f_tau s).
Definition w_dec s x := mkF (f_nv s) (f_nu s) (f_t s) (f_k s) (f_eq s) (f_in s) (f_heap s) (f_hqp s) (f_base s) (f_contacts s) (f_motions s) (f_forces s) (f_acts s) (f_meas s) (f_trans s) (f_objs s) (f_Jc s) (f_hfext s) (f_mass s) (f_nle s) x (f_dv s) (f_f s) (f_tau s).
Definition w_sol s dv f tau := mkF (f_nv s) (f_nu s) (f_t s) (f_k s) (f_eq s) (f_in s) (f_heap s) (f_hqp s) (f_base s) (f_contacts s) (f_motions s) (f_forces s) (f_acts s) (f_meas s) (f_trans s) (f_objs s) (f_Jc s) (f_hfext s) (f_mass s) (f_nle s) true dv f tau.

(** Observers: nVar(), nEq(), nIn() (idf:43-49) and the HQP data seen through the
    returned reference, with the shared constraints dereferenced. *)
Definition nVar (s : fstate) : nat := f_nv s + f_k s.
Definition nEq (s : fstate) : Z := f_eq s.
Definition nIn (s : fstate) : Z := f_in s.
Definition deref (s : fstate) (e : K * nat) : K * option (constr K) :=
  (fst e, nth_error (f_heap s) (snd e)).
Definition hqp (s : fstate) : list (list (K * option (constr K))) :=
  map (map (deref s)) (f_hqp s).

(** Constructor, idf:20-39. [mass0], [nle0] are the contents of pinocchio's Data
    before the first computation; no contact object exists yet. *)
Definition init (nv na : nat) (mass0 : mat K) (nle0 : vec K) : fstate :=
  let nu := nv - na in
  mkF nv nu n0 0 (Z.of_nat nu) 0%Z
      [new_eq "base-dynamics" nu nv]
      [[(n1, 0)]; []] 0
      [] [] [] [] [] [] []
      (mzero 0 nv) (vzero nv) mass0 nle0
      false (vzero 0) (vzero 0) (vzero 0).

(** Resize the constraint at address [a] to its own number of rows and [c]
    columns (idf:56). *)
Definition resize_at (c : nat) (h : list (constr K)) (a : nat) : option (list (constr K)) :=
  do k <- nth_error h a;
  do r <- crows k;
  do k' <- cresize k r c;
  Some (lupd h a k').

(** resizeHqpData, idf:51-59. *)
Definition resize_hqp (s : fstate) : option fstate :=
  let n := f_nv s + f_k s in
  do b <- nth_error (f_heap s) (f_base s);
  do b' <- cresize b (f_nu s) n;
  do h <- ofold (fun h e => resize_at n h (snd e)) (List.concat (f_hqp s)) (lupd (f_heap s) (f_base s) b');
  Some (w_Jc (w_heap s h) (mzero (f_k s) (f_nv s))).

(** std::vector<ConstraintLevel>::resize to a larger size appends empty levels. *)
Definition grow {A} (l : list (list A)) (n : nat) : list (list A) :=
  l ++ repeat [] (n - List.length l).

(** m_hqpData[lvl].push_back(e): out of bounds when lvl >= size. *)
Definition push_level {A} (l : list (list A)) (lvl : nat) (e : A) : option (list (list A)) :=
  do x <- nth_error l lvl; Some (lupd l lvl (x ++ [e])).

(** addTask, idf:61-83, and the identical code in addActuationTask, idf:128-145:
    allocate the constraint, update the counters, push it.  The vector of levels
    is resized only when priorityLevel > size, and to priorityLevel elements, so
    index priorityLevel stays out of range. *)
Definition new_task_cstr (name : string) (kd : ckind) (rows cols : nat) : constr K :=
  match kd with CEq => new_eq name rows cols | _ => new_ineq name rows cols end.

Definition add_task_cstr (s : fstate) (name : string) (kd : ckind) (rows : nat)
           (w : K) (lvl : nat) : option (fstate * nat) :=
  let hq := if List.length (f_hqp s) <? lvl then grow (f_hqp s) lvl else f_hqp s in
  let a := List.length (f_heap s) in
  let c := new_task_cstr name kd rows (f_nv s + f_k s) in
  let s := w_heap s (f_heap s ++ [c]) in
  let s := match kd with
           | CEq => if lvl =? 0 then w_eq s (f_eq s + Z.of_nat rows)%Z else s
           | _ => if lvl =? 0 then w_in s (f_in s + Z.of_nat rows)%Z else s
           end in
  do hq' <- push_level hq lvl (w, a);
  Some (w_hqp s hq', a).

(** PINOCCHIO_CHECK_INPUT_ARGUMENTs of idf:88-92, 104-108, 119-123. *)
Definition args_ok (w dur : K) : bool := ((n0 <=? w) && (n0 <=? dur))%num.

(** addMotionTask / addForceTask / addActuationTask, idf:85-148.  The task object
    [id] has name [name] and its getConstraint() has kind [kd] and [rows] rows. *)
Definition add_motion s id name kd rows w lvl dur : outcome fstate bool :=
  if args_ok w dur then
    match add_task_cstr s name kd rows w lvl with
    | Some (s', a) => Ret (w_motions s' (f_motions s' ++ [mkTl id name lvl a])) true
    | None => Undef
    end
  else Exc s.
Definition add_force s id name kd rows w lvl dur : outcome fstate bool :=
  if args_ok w dur then
    match add_task_cstr s name kd rows w lvl with
    | Some (s', a) => Ret (w_forces s' (f_forces s' ++ [mkTl id name lvl a])) true
    | None => Undef
    end
  else Exc s.
Definition add_act s id name kd rows w lvl dur : outcome fstate bool :=
  if args_ok w dur then
    match add_task_cstr s name kd rows w lvl with
    | Some (s', a) => Ret (w_acts s' (f_acts s' ++ [mkTl id name lvl a])) true
    | None => Undef
    end
  else Exc s.

(** Name of the constraint at an address ("" when dangling, which cannot happen). *)
Definition name_at (h : list (constr K)) (a : nat) : string :=
  match nth_error h a with Some c => c_name c | None => "" end.

(** updateTaskWeight, idf:150-163: first match in levels 1.. *)
Fixpoint upd_weight_level (h : list (constr K)) (name : string) (w : K) (l : list (K * nat))
  : option (list (K * nat)) :=
  match l with
  | [] => None
  | e :: l' => if String.eqb (name_at h (snd e)) name then Some ((w, snd e) :: l')
               else match upd_weight_level h name w l' with
                    | Some r => Some (e :: r) | None => None end
  end.
Fixpoint upd_weight_levels (h : list (constr K)) (name : string) (w : K) (ls : list (list (K * nat)))
  : option (list (list (K * nat))) :=
  match ls with
  | [] => None
  | l :: ls' => match upd_weight_level h name w l with
                | Some l' => Some (l' :: ls')
                | None => match upd_weight_levels h name w ls' with
                          | Some r => Some (l :: r) | None => None end
                end
  end.
Definition upd_task_weight (s : fstate) (name : string) (w : K) : fstate * bool :=
  match f_hqp s with
  | [] => (s, false)
  | l0 :: ls => match upd_weight_levels (f_heap s) name w ls with
                | Some ls' => (w_hqp s (l0 :: ls'), true)
                | None => (s, false)
                end
  end.

(** addRigidContact, idf:165-200 (the overload idf:202-207 passes 1e-5 and the
    default weight 1 and level 0).  [o] is the contact object. *)
Definition add_contact (s : fstate) (o : nat) (wreg wmot : K) (lvl : nat) : outcome fstate bool :=
  match (do c <- nth_error (f_objs s) o;
         let idx := f_k s in
         let s := w_k s (f_k s + co_nforce c) in
         do s <- resize_hqp s;
         let n := f_nv s + f_k s in
         let am := List.length (f_heap s) in
         let s := w_heap s (f_heap s ++ [new_eq (co_name c ++ "_motion_task")%string (co_mrows c) n]) in
         do hq <- push_level (f_hqp s) lvl (wmot, am);
         let s := w_hqp s hq in
         let af := List.length (f_heap s) in
         let s := w_heap s (f_heap s ++ [new_ineq (co_name c ++ "_force_constraint")%string (co_frows c) n]) in
         do hq <- push_level (f_hqp s) 0 (n1, af);
         let s := w_hqp s hq in
         let ar := List.length (f_heap s) in
         let s := w_heap s (f_heap s ++ [new_eq (co_name c ++ "_force_reg_task")%string (co_rrows c) n]) in
         do hq <- push_level (f_hqp s) 1 (wreg, ar);
         let s := w_hqp s hq in
         let s := w_contacts s (f_contacts s ++ [mkCl o idx am af ar]) in
         let s := if lvl =? 0 then w_eq s (f_eq s + Z.of_nat (co_mrows c))%Z else s in
         Some (w_in s (f_in s + Z.of_nat (co_frows c))%Z)) with
  | Some s' => Ret s' true
  | None => Undef
  end.

(** updateRigidContactWeights, idf:209-233.  The loop over levels 1.. carries the
    two "found" flags; [inr] is the early return, [inl] the end of the loop. *)
Fixpoint upd_cw_level (h : list (constr K)) (name : string) (wf wm : K) (l : list (K * nat))
         (ff mf : bool) : list (K * nat) * (bool * bool + unit) :=
  match l with
  | [] => ([], inl (ff, mf))
  | e :: l' =>
      if String.eqb (name_at h (snd e)) (name ++ "_force_reg_task")%string then
        let e' := if (n0 <=? wf)%num then (wf, snd e) else e in
        if mf || (wm <? n0)%num then (e' :: l', inr tt)
        else let '(r, o) := upd_cw_level h name wf wm l' true mf in (e' :: r, o)
      else if String.eqb (name_at h (snd e)) (name ++ "_motion_task")%string then
        let e' := if (n0 <=? wm)%num then (wm, snd e) else e in
        if ff then (e' :: l', inr tt)
        else let '(r, o) := upd_cw_level h name wf wm l' ff true in (e' :: r, o)
      else let '(r, o) := upd_cw_level h name wf wm l' ff mf in (e :: r, o)
  end.
Fixpoint upd_cw_levels h name wf wm (ls : list (list (K * nat))) ff mf
  : list (list (K * nat)) * bool :=
  match ls with
  | [] => ([], false)
  | l :: ls' => match upd_cw_level h name wf wm l ff mf with
                | (l', inr _) => (l' :: ls', true)
                | (l', inl (ff', mf')) =>
                    let '(r, b) := upd_cw_levels h name wf wm ls' ff' mf' in (l' :: r, b)
                end
  end.
Definition upd_contact_weights (s : fstate) (name : string) (wf wm : K) : fstate * bool :=
  match f_hqp s with
  | [] => (s, false)
  | l0 :: ls => let '(ls', b) := upd_cw_levels (f_heap s) name wf wm ls false false in
                (w_hqp s (l0 :: ls'), b)
  end.

(** removeFromHqpData, idf:579-593: erase the first entry with this name. *)
Fixpoint erase_level (h : list (constr K)) (name : string) (l : list (K * nat))
  : option (list (K * nat)) :=
  match l with
  | [] => None
  | e :: l' => if String.eqb (name_at h (snd e)) name then Some l'
               else match erase_level h name l' with Some r => Some (e :: r) | None => None end
  end.
Fixpoint erase_levels (h : list (constr K)) (name : string) (ls : list (list (K * nat)))
  : option (list (list (K * nat))) :=
  match ls with
  | [] => None
  | l :: ls' => match erase_level h name l with
                | Some l' => Some (l' :: ls')
                | None => match erase_levels h name ls' with
                          | Some r => Some (l :: r) | None => None end
                end
  end.
Definition erase_hqp (s : fstate) (name : string) : fstate * bool :=
  match erase_levels (f_heap s) name (f_hqp s) with
  | Some ls => (w_hqp s ls, true)
  | None => (s, false)
  end.

(** getTaskPriority, idf:595-607: index of the first level holding the name;
    [None] here stands for "not found" (assert(false); return -1). *)
Definition level_has (h : list (constr K)) (name : string) (l : list (K * nat)) : bool :=
  existsb (fun e => String.eqb (name_at h (snd e)) name) l.
Fixpoint task_priority (h : list (constr K)) (name : string) (ls : list (list (K * nat))) : option nat :=
  match ls with
  | [] => None
  | l :: ls' => if level_has h name l then Some 0
                else match task_priority h name ls' with Some i => Some (S i) | None => None end
  end.

(** First task level with a given task name, and the list without it. *)
Fixpoint take_task (name : string) (l : list tlevel) : option (tlevel * list tlevel) :=
  match l with
  | [] => None
  | t :: l' => if String.eqb (tl_name t) name then Some (t, l')
               else match take_task name l' with
                    | Some (x, r) => Some (x, t :: r) | None => None end
  end.

(** rows() and kind of the constraint of a task level *)
Definition tl_rows (s : fstate) (t : tlevel) : option (ckind * nat) :=
  do c <- nth_error (f_heap s) (tl_cstr t); do r <- crows c; Some (c_kind c, r).

(** removeTask, idf:465-506. The second argument is ignored by the code. *)
Definition remove_task (s : fstate) (name : string) : outcome fstate bool :=
  let '(s, found) := erase_hqp s name in
  match assert_ found with
  | None => Undef
  | Some _ =>
    match take_task name (f_motions s) with
    | Some (t, r) =>
        if tl_prio t =? 0 then
          match tl_rows s t with
          | None => Undef
          | Some (CEq, n) => Ret (w_motions (w_eq s (f_eq s - Z.of_nat n)%Z) r) true
          | Some (CIneq, n) => Ret (w_motions (w_in s (f_in s - Z.of_nat n)%Z) r) true
          | Some (CBound, n) => Ret (w_motions s r) true
          end
        else Ret (w_motions s r) true
    | None =>
      match take_task name (f_forces s) with
      | Some (t, r) => Ret (w_forces s r) true
      | None =>
        match take_task name (f_acts s) with
        | Some (t, r) =>
            if tl_prio t =? 0 then
              match tl_rows s t with
              | None => Undef
              | Some (CEq, n) => Ret (w_acts (w_eq s (f_eq s - Z.of_nat n)%Z) r) true
              | Some (_, n) => Ret (w_acts (w_in s (f_in s - Z.of_nat n)%Z) r) true
              end
            else Ret (w_acts s r) true
        | None => Ret s false
        end
      end
    end
  end.

(** contact.name(), contact.n_force() of a contact level *)
Definition cobj_at (s : fstate) (o : nat) : option cobj := nth_error (f_objs s) o.
Definition cl_name (s : fstate) (c : clevel) : string :=
  match cobj_at s (cl_obj c) with Some x => co_name x | None => "" end.
Definition cl_nforce (s : fstate) (c : clevel) : nat :=
  match cobj_at s (cl_obj c) with Some x => co_nforce x | None => 0 end.

(** First contact level with the given contact name, and the list without it. *)
Fixpoint take_contact (s : fstate) (name : string) (l : list clevel)
  : option (clevel * list clevel) :=
  match l with
  | [] => None
  | c :: l' => if String.eqb (cl_name s c) name then Some (c, l')
               else match take_contact s name l' with
                    | Some (x, r) => Some (x, c :: r) | None => None end
  end.
Definition find_contact (s : fstate) (name : string) : option clevel :=
  match take_contact s name (f_contacts s) with Some (c, _) => Some c | None => None end.

(** Re-indexing loop, idf:559-563. *)
Fixpoint reindex (s : fstate) (k : nat) (l : list clevel) : list clevel :=
  match l with
  | [] => []
  | c :: l' => mkCl (cl_obj c) k (cl_motion c) (cl_force c) (cl_reg c)
               :: reindex s (k + cl_nforce s c) l'
  end.

(** removeRigidContact without transition, idf:532-565. *)
Definition remove_contact_now (s : fstate) (name : string) : outcome fstate bool :=
  match (do prio <- match task_priority (f_heap s) (name ++ "_motion_task")%string (f_hqp s) with
                    | Some p => Some (Some p)
                    | None => do _ <- assert_ false; Some None
                    end;
         let is_motion := match prio with Some p => p =? 0 | None => false end in
         let '(s, b1) := erase_hqp s (name ++ "_motion_task")%string in
         do _ <- assert_ b1;
         let '(s, b2) := erase_hqp s (name ++ "_force_constraint")%string in
         do _ <- assert_ b2;
         let '(s, b3) := erase_hqp s (name ++ "_force_reg_task")%string in
         do _ <- assert_ b3;
         do sb <-
           match take_contact s name (f_contacts s) with
           | None => Some (s, false)
           | Some (c, rest) =>
               let s := w_k s (f_k s - cl_nforce s c) in
               do s <- (if is_motion then
                          do mc <- nth_error (f_heap s) (cl_motion c);
                          do r <- crows mc;
                          Some (w_eq s (f_eq s - Z.of_nat r)%Z)
                        else Some s);
               do fc <- nth_error (f_heap s) (cl_force c);
               do r <- crows fc;
               let s := w_in s (f_in s - Z.of_nat r)%Z in
               let s := w_contacts s rest in
               do s <- resize_hqp s;
               Some (s, true)
           end;
         let '(s, found) := sb in
         Some (w_contacts s (reindex s 0 (f_contacts s)), found && b1 && b2 && b3)) with
  | Some (s', b) => Ret s' b
  | None => Undef
  end.

(** removeRigidContact, idf:508-566. m_f.size() >= index + k decides whether the
    last decoded force is used (idf:518-523); getNormalForce throws when the size
    is wrong, which cannot happen here as the segment has n_force entries. *)
Definition remove_contact (s : fstate) (name : string) (dur : K) : outcome fstate bool :=
  if (n0 <? dur)%num then
    match find_contact s name with
    | None => Ret s false
    | Some c =>
        match cobj_at s (cl_obj c) with
        | None => Undef
        | Some x =>
            let k := co_nforce x in
            let fstart := match vsegment (f_f s) (cl_index c) k with
                          | Some f => co_nf x f
                          | None => co_fmax x
                          end in
            let tr := mkTr (cl_obj c) (f_t s) (f_t s + dur)%num fstart
                           (co_fmin x + nofQ (1 # 1000))%num in
            Ret (w_trans s (f_trans s ++ [tr])) true
        end
    end
  else remove_contact_now s name.

(** addMeasuredForce, idf:235-241; removeMeasuredForce, idf:568-577. *)
Definition add_meas (s : fstate) (id : nat) (name : string) : fstate :=
  w_meas s (f_meas s ++ [(id, name)]).
Fixpoint take_meas (name : string) (l : list (nat * string)) : option (list (nat * string)) :=
  match l with
  | [] => None
  | m :: l' => if String.eqb (snd m) name then Some l'
               else match take_meas name l' with Some r => Some (m :: r) | None => None end
  end.
Definition remove_meas (s : fstate) (name : string) : fstate * bool :=
  match take_meas name (f_meas s) with
  | Some r => (w_meas s r, true)
  | None => (s, false)
  end.

(** contact.setMaxNormalForce / setMinNormalForce on object [o]
    (contact-6d.cpp:171-192, contact-point.cpp:148-169,
    contact-two-frame-positions.cpp:123-133). *)
Definition obj_set_fmax (s : fstate) (o : nat) (f : K) : outcome fstate bool :=
  match cobj_at s o with
  | None => Undef
  | Some x => if negb (co_checks x) || (co_fmin x <=? f)%num
              then Ret (w_objs s (lupd (f_objs s) o (set_fmax x f))) true
              else Exc s
  end.
Definition obj_set_fmin (s : fstate) (o : nat) (f : K) : outcome fstate bool :=
  match cobj_at s o with
  | None => Undef
  | Some x => if negb (co_checks x) || ((n0 <? f) && (f <=? co_fmax x))%num
              then Ret (w_objs s (lupd (f_objs s) o (set_fmin x f))) true
              else Exc s
  end.

(** What the user's objects and pinocchio return during one call of
    computeProblemData. *)
Record env := mkEnv {
  e_mass : mat K;                          (* m_robot.mass(m_data) *)
  e_nle : vec K;                           (* m_robot.nonLinearEffects(m_data) *)
  e_cmotion : nat -> mat K * vec K;        (* contact.computeMotionTask *)
  e_gen : nat -> mat K;                    (* contact.getForceGeneratorMatrix *)
  e_cforce : nat -> K -> K -> mat K * vec K * vec K;
                                           (* contact.computeForceTask, given the current fMin, fMax *)
  e_creg : nat -> mat K * vec K;           (* contact.computeForceRegularizationTask *)
  e_task : nat -> constr K;                (* task.compute *)
  e_assoc : nat -> string;                 (* task.getAssociatedContactName *)
  e_meas : nat -> vec K                    (* measuredForce.computeJointTorques *) }.

(** Transition loop, idf:247-266. [todo] are the transitions not yet visited. When
    one has ended, its contact is removed, the transition is erased and the loop
    stops (break). *)
Fixpoint run_transitions (s : fstate) (done todo : list ctrans) : outcome fstate unit :=
  match todo with
  | [] => Ret s tt
  | c :: rest =>
      match assert_ (tr_t0 c <=? f_t s)%num with
      | None => Undef
      | Some _ =>
        if (f_t s <=? tr_t1 c)%num then
          let alpha := ((f_t s - tr_t0 c) / (tr_t1 c - tr_t0 c))%num in
          let fmax := (tr_f0 c + alpha * (tr_f1 c - tr_f0 c))%num in
          match obj_set_fmax s (tr_obj c) fmax with
          | Ret s' _ => run_transitions s' (done ++ [c]) rest
          | Exc s' => Exc s'
          | Undef => Undef
          end
        else
          match cobj_at s (tr_obj c) with
          | None => Undef
          | Some x =>
              match remove_contact_now s (co_name x) with
              | Ret s' _ => Ret (w_trans s' (done ++ rest)) tt
              | Exc s' => Exc (w_trans s' (done ++ rest))
              | Undef => Undef
              end
          end
      end
  end.

(** Heap update of one constraint. *)
Definition on_heap (h : list (constr K)) (a : nat) (f : constr K -> option (constr K))
  : option (list (constr K)) :=
  do c <- nth_error h a; do c' <- f c; Some (lupd h a c').

(** constraint->matrix().middleCols(j,n) = m *)
Definition put_cols (j n : nat) (m : mat K) (c : constr K) : option (constr K) :=
  do a <- mset_cols (c_mat c) j n m; Some (cset_mat c a).
Definition put_right (n : nat) (m : mat K) (c : constr K) : option (constr K) :=
  do a <- mset_right (c_mat c) n m; Some (cset_mat c a).

(** Contact loop body, idf:270-292. *)
Definition comp_contact (s : fstate) (e : env) (cl : clevel) : option fstate :=
  do x <- cobj_at s (cl_obj cl);
  let m := co_nforce x in
  let o := cl_obj cl in
  let '(A, b) := e_cmotion e o in
  do h <- on_heap (f_heap s) (cl_motion cl)
            (fun c => do c <- put_cols 0 (f_nv s) A c; cset_vec c b);
  do TA <- mmul (mtr (e_gen e o)) A;
  do J <- mset_rows (f_Jc s) (cl_index cl) m TA;
  let '(B, lb, ub) := e_cforce e o (co_fmin x) (co_fmax x) in
  do h <- on_heap h (cl_force cl)
            (fun c => do c <- put_cols (f_nv s + cl_index cl) m B c;
                      do c <- cset_lb c lb; cset_ub c ub);
  let '(C, d) := e_creg e o in
  do h <- on_heap h (cl_reg cl)
            (fun c => do c <- put_cols (f_nv s + cl_index cl) m C c; cset_vec c d);
  Some (w_Jc (w_heap s h) J).

(** External force accumulation, idf:294-298. *)
Definition comp_hfext (s : fstate) (e : env) : option (vec K) :=
  ofold (fun acc m => vadd acc (e_meas e (fst m))) (f_meas s) (vzero (f_nv s)).

(** M_a, h_a, J_a, M_u, h_u, J_u, idf:300-307 and 406-409. *)
Record dynb := mkDyn { d_Ma : mat K; d_ha : vec K; d_Ja : mat K; d_Mu : mat K; d_hu : vec K; d_Ju : mat K }.
Definition dyn_blocks (s : fstate) : option dynb :=
  let na := f_nv s - f_nu s in
  do Ma <- mbottom (f_mass s) na;
  do h1 <- vtail (f_nle s) na; do x1 <- vtail (f_hfext s) na; do ha <- vsub h1 x1;
  do Ja <- mright (f_Jc s) na;
  do Mu <- mtop (f_mass s) (f_nu s);
  do h2 <- vhead (f_nle s) (f_nu s); do x2 <- vhead (f_hfext s) (f_nu s); do hu <- vsub h2 x2;
  do Ju <- mleft (f_Jc s) (f_nu s);
  Some (mkDyn Ma ha Ja Mu hu Ju).

(** Base dynamics, idf:309-311. *)
Definition comp_base (s : fstate) (d : dynb) : option fstate :=
  do h <- on_heap (f_heap s) (f_base s)
            (fun c => do c <- put_cols 0 (f_nv s) (d_Mu d) c;
                      do c <- put_right (f_k s) (mopp (mtr (d_Ju d))) c;
                      cset_vec c (vopp (d_hu d)));
  Some (w_heap s h).

(** Motion task loop body, idf:315-329. *)
Definition comp_motion (e : env) (s : fstate) (t : tlevel) : option fstate :=
  let c := e_task e (tl_task t) in
  do h <- on_heap (f_heap s) (tl_cstr t) (fun k =>
    match c_kind c with
    | CEq => do k <- put_cols 0 (f_nv s) (c_mat c) k; cset_vec k (c_vec c)
    | CIneq => do k <- put_cols 0 (f_nv s) (c_mat c) k;
               do k <- cset_lb k (c_lb c); cset_ub k (c_ub c)
    | CBound => do k <- put_cols 0 (f_nv s) (mident (f_nv s) (f_nv s)) k;
                do k <- cset_lb k (c_lb c); cset_ub k (c_ub c)
    end);
  Some (w_heap s h).

(** Columns addressed by a force task, idf:334-349: all contact forces, unless
    its associated contact is found. *)
Definition force_slot (s : fstate) (assoc : string) : nat * nat :=
  if String.eqb assoc "" then (f_nv s, f_k s)
  else match find_contact s assoc with
       | Some cl => (f_nv s + cl_index cl, cl_nforce s cl)
       | None => (f_nv s, f_k s)
       end.

(** Force task loop body, idf:331-371. *)
Definition comp_force (e : env) (s : fstate) (t : tlevel) : option fstate :=
  let '(i0, sz) := force_slot s (e_assoc e (tl_task t)) in
  let c := e_task e (tl_task t) in
  do h <- on_heap (f_heap s) (tl_cstr t) (fun k =>
    match c_kind c with
    | CEq => do k <- put_cols i0 sz (c_mat c) k; cset_vec k (c_vec c)
    | CIneq => do k <- put_cols i0 sz (c_mat c) k;
               do k <- cset_lb k (c_lb c); cset_ub k (c_ub c)
    | CBound => do k <- put_cols i0 sz (mident sz sz) k;
                do k <- cset_lb k (c_lb c); cset_ub k (c_ub c)
    end);
  Some (w_heap s h).

(** Actuation task loop body, idf:373-396. *)
Definition comp_act (e : env) (d : dynb) (s : fstate) (t : tlevel) : option fstate :=
  let c := e_task e (tl_task t) in
  do h <- on_heap (f_heap s) (tl_cstr t) (fun k =>
    match c_kind c with
    | CEq => do AM <- mmul (c_mat c) (d_Ma d);
             do k <- put_cols 0 (f_nv s) AM k;
             do AJ <- mmul (mopp (c_mat c)) (mtr (d_Ja d));
             do k <- put_right (f_k s) AJ k;
             do Ah <- mvec (c_mat c) (d_ha d);
             do b <- vsub (c_vec c) Ah;
             cset_vec k b
    | CIneq => do AM <- mmul (c_mat c) (d_Ma d);
               do k <- put_cols 0 (f_nv s) AM k;
               do AJ <- mmul (mopp (c_mat c)) (mtr (d_Ja d));
               do k <- put_right (f_k s) AJ k;
               do Ah <- mvec (c_mat c) (d_ha d);
               do l <- vsub (c_lb c) Ah;
               do k <- cset_lb k l;
               do u <- vsub (c_ub c) Ah;
               cset_ub k u
    | CBound => do k <- put_cols 0 (f_nv s) (d_Ma d) k;
                do k <- put_right (f_k s) (mopp (mtr (d_Ja d))) k;
                do l <- vsub (c_lb c) (d_ha d);
                do k <- cset_lb k l;
                do u <- vsub (c_ub c) (d_ha d);
                cset_ub k u
    end);
  Some (w_heap s h).

(** Second part of computeProblemData, idf:268-398. *)
Definition comp_fill (s : fstate) (e : env) : option fstate :=
  let s := w_dyn s (e_mass e) (e_nle e) in
  do s <- ofold (fun s cl => comp_contact s e cl) (f_contacts s) s;
  do hf <- comp_hfext s e;
  let s := w_hfext s hf in
  do d <- dyn_blocks s;
  do s <- comp_base s d;
  do s <- ofold (comp_motion e) (f_motions s) s;
  do s <- ofold (comp_force e) (f_forces s) s;
  do s <- ofold (comp_act e d) (f_acts s) s;
  Some (w_dec s false).

(** computeProblemData, idf:243-401. *)
Definition compute (s : fstate) (t : K) (e : env) : outcome fstate unit :=
  let s := w_t s t in
  match run_transitions s [] (f_trans s) with
  | Ret s' _ => match comp_fill s' e with Some s'' => Ret s'' tt | None => Undef end
  | Exc s' => Exc s'
  | Undef => Undef
  end.

(** decodeSolution, idf:403-417; [x] is sol.x. *)
Definition decode (s : fstate) (x : vec K) : option fstate :=
  if f_dec s then Some s
  else
    do d <- dyn_blocks s;
    do dv <- vhead x (f_nv s);
    do f <- vtail x (f_k s);
    do Mdv <- mvec (d_Ma d) dv;
    do tau1 <- vadd (d_ha d) Mdv;
    do Jf <- mvec (mtr (d_Ja d)) f;
    do tau <- vsub tau1 Jf;
    Some (w_sol s dv f tau).

(** Getters, idf:419-463.  [GForceOf] is getContactForces(name, sol) returning a
    vector (empty when unknown); the overload with an output argument returns
    false instead of the empty vector. *)
Inductive getter := GTau | GAcc | GForce | GForceOf (name : string).
Definition get (s : fstate) (g : getter) (x : vec K) : outcome fstate (vec K) :=
  match decode s x with
  | None => Undef
  | Some s' =>
      match g with
      | GTau => Ret s' (f_tau s')
      | GAcc => Ret s' (f_dv s')
      | GForce => Ret s' (f_f s')
      | GForceOf name =>
          match find_contact s' name with
          | None => Ret s' (vzero 0)
          | Some cl => match vsegment (f_f s') (cl_index cl) (cl_nforce s' cl) with
                       | Some v => Ret s' v
                       | None => Undef
                       end
          end
      end
  end.

(** Public calls. *)
Inductive fop :=
| ONewContact (c : cobj)
| OSetFMin (o : nat) (f : K)
| OSetFMax (o : nat) (f : K)
| OAddMotion (id : nat) (name : string) (kd : ckind) (rows : nat) (w : K) (lvl : nat) (dur : K)
| OAddForce (id : nat) (name : string) (kd : ckind) (rows : nat) (w : K) (lvl : nat) (dur : K)
| OAddAct (id : nat) (name : string) (kd : ckind) (rows : nat) (w : K) (lvl : nat) (dur : K)
| OUpdTask (name : string) (w : K)
| OAddContact (o : nat) (wreg wmot : K) (lvl : nat)
| OUpdContact (name : string) (wf wm : K)
| OAddMeas (id : nat) (name : string)
| ORemTask (name : string)
| ORemContact (name : string) (dur : K)
| ORemMeas (name : string)
| OCompute (t : K) (e : env)
| OGet (g : getter) (x : vec K).

Inductive fout := OutUnit | OutBool (b : bool) | OutVec (v : vec K).

Definition lift {A} (f : A -> fout) (o : outcome fstate A) : outcome fstate fout :=
  match o with Ret s a => Ret s (f a) | Exc s => Exc s | Undef => Undef end.

Definition step (s : fstate) (o : fop) : outcome fstate fout :=
  match o with
  | ONewContact c => Ret (w_objs s (f_objs s ++ [c])) OutUnit
  | OSetFMin o f => lift OutBool (obj_set_fmin s o f)
  | OSetFMax o f => lift OutBool (obj_set_fmax s o f)
  | OAddMotion id n kd r w l d => lift OutBool (add_motion s id n kd r w l d)
  | OAddForce id n kd r w l d => lift OutBool (add_force s id n kd r w l d)
  | OAddAct id n kd r w l d => lift OutBool (add_act s id n kd r w l d)
  | OUpdTask n w => let '(s', b) := upd_task_weight s n w in Ret s' (OutBool b)
  | OAddContact o wr wm l => lift OutBool (add_contact s o wr wm l)
  | OUpdContact n wf wm => let '(s', b) := upd_contact_weights s n wf wm in Ret s' (OutBool b)
  | OAddMeas id n => Ret (add_meas s id n) (OutBool true)
  | ORemTask n => lift OutBool (remove_task s n)
  | ORemContact n d => lift OutBool (remove_contact s n d)
  | ORemMeas n => let '(s', b) := remove_meas s n in Ret s' (OutBool b)
  | OCompute t e => lift (fun _ => OutUnit) (compute s t e)
  | OGet g x => lift OutVec (get s g x)
  end.

End Formulation.

Arguments cobj : clear implicits.
Arguments fstate : clear implicits.
Arguments env : clear implicits.
Arguments fop : clear implicits.
Arguments fout : clear implicits.
Arguments ctrans : clear implicits.
