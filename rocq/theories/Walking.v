(** Model of the biped of exercizes/tsid_biped.py (class TsidBiped) and of the contact
    switching of the walking loop exercizes/ex_4_walking.py, as programs that call
    InverseDynamicsFormulationAccForce.

    Simplifications: robot, tasks and contacts are as in Formulation.v (their data is an
    environment); references, gains, the solver object, viewer, plots and logs are
    dropped; w_contact and the other weights are numbers of the scalar type. *)
From Coq Require Import String List Arith Bool ZArith.
From Verif Require Import Scalar Outcome Linalg Constraint Formulation.
Import ListNotations.
Open Scope string_scope.
Open Scope list_scope.
Open Scope nat_scope.

Section Walking.
Context {K : num}.
Variable dbg : bool.

(** The weights of the configuration files that TsidBiped reads (e.g. ex_4_conf.py:59-67),
    and the number of ones in masks_posture (ex_4_conf.py:78). *)
Record conf := mkConf {
  w_com : K; w_cop : K; w_am : K; w_foot : K; w_contact : K; w_posture : K; w_forceRef : K;
  w_torque_bounds : K; w_joint_bounds : K; n_posture : nat }.

(** A Contact6d as the formulation sees it (contact-6d.cpp:21-30 and 131: n_force 12, motion
    task of 6 rows, 17 friction rows, 6 rows of force regularisation). *)
Definition six (name : string) (fmin fmax : K) (nf : vec K -> K) : cobj K :=
  mkCobj name 12 6 17 6 true fmin fmax nf.

(** The calls of addRigidContact, tsid_biped.py:60-63, 82-85, 283-288 and 296-301. The
    overload without motion weight uses 1 and level 0
    (inverse-dynamics-formulation-acc-force.hpp:66-68). *)
Definition add_foot (C : conf) (o : nat) : fop K :=
  if (n0 <=? w_contact C)%num then OAddContact o (w_forceRef C) (w_contact C) 1
  else OAddContact o (w_forceRef C) n1 0.

(** The calls of __init__ on the formulation, tsid_biped.py:32-157: object 0 is
    contactRF, object 1 contactLF; tasks are numbered in the order of creation. *)
Definition start_calls (C : conf) (nv na : nat) (rf lf : cobj K) (e0 e1 : env K) : list (fop K) :=
  [OCompute n0 e0; ONewContact rf; OCompute n0 e1; add_foot C 0; ONewContact lf; add_foot C 1;
   OAddMotion 0 "task-com" CEq 3 (w_com C) 1 n0;
   OAddForce 1 "task-cop" CEq 3 (w_cop C) 1 n0;
   OAddMotion 2 "task-am" CEq 3 (w_am C) 1 n0;
   OAddMotion 3 "task-posture" CEq (n_posture C) (w_posture C) 1 n0;
   OAddMotion 4 "task-left-foot" CEq 6 (w_foot C) 1 n0;
   OAddMotion 5 "task-right-foot" CEq 6 (w_foot C) 1 n0] ++
  (if (n0 <? w_torque_bounds C)%num
   then [OAddAct 6 "task-actuation-bounds" CIneq na (w_torque_bounds C) 0 n0] else []) ++
  (if (n0 <? w_joint_bounds C)%num
   then [OAddMotion 7 "task-joint-bounds" CBound nv (w_joint_bounds C) 0 n0] else []).

(** A sequence of calls none of which throws ([None] otherwise). *)
Fixpoint calls (s : fstate K) (l : list (fop K)) : option (fstate K) :=
  match l with
  | [] => Some s
  | o :: l' => match step dbg s o with Ret s' _ => calls s' l' | _ => None end
  end.

(** The object: formulation, contact_RF_active, contact_LF_active. *)
Record biped := mkBiped { b_f : fstate K; b_rf : bool; b_lf : bool }.

Definition biped_new (C : conf) (nv na : nat) (M0 : mat K) (H0 : vec K) (rf lf : cobj K) (e0 e1 : env K)
  : option biped :=
  do s <- calls (init nv na M0 H0) (start_calls C nv na rf lf e0 e1); Some (mkBiped s true true).

(** Calls of the user: the four contact methods with their argument transition_time
    (tsid_biped.py:263-301), computeProblemData and the getters of the formulation. *)
Inductive bop :=
| RemoveRF (T : K) | RemoveLF (T : K) | AddRF (T : K) | AddLF (T : K)
| Compute (t : K) (e : env K)
| Get (g : getter) (x : vec K).

Definition onb (b : biped) (fl : bool * bool) (o : outcome (fstate K) (fout K)) : outcome biped (fout K) :=
  match o with
  | Ret s r => Ret (mkBiped s (fst fl) (snd fl)) r
  | Exc s => Exc (mkBiped s (b_rf b) (b_lf b))
  | Undef => Undef
  end.

(** transition_time is passed to removeRigidContact (tsid_biped.py:268, 276) and not
    used by add_contact_RF/LF. *)
Definition bstep (C : conf) (b : biped) (o : bop) : outcome biped (fout K) :=
  match o with
  | RemoveRF T => onb b (false, b_lf b) (step dbg (b_f b) (ORemContact "contact_rfoot" T))
  | RemoveLF T => onb b (b_rf b, false) (step dbg (b_f b) (ORemContact "contact_lfoot" T))
  | AddRF _ => onb b (true, b_lf b) (step dbg (b_f b) (add_foot C 0))
  | AddLF _ => onb b (b_rf b, true) (step dbg (b_f b) (add_foot C 1))
  | Compute t e => onb b (b_rf b, b_lf b) (step dbg (b_f b) (OCompute t e))
  | Get g x => onb b (b_rf b, b_lf b) (step dbg (b_f b) (OGet g x))
  end.

(** ** The walking loop, ex_4_walking.py *)

(** Entries of contact_phase. *)
Inductive phase := PLeft | PRight.
Definition phase_eqb (a b : phase) : bool :=
  match a, b with PLeft, PLeft | PRight, PRight => true | _, _ => false end.

(** Contact calls of iteration [i] of the loop (ex_4_walking.py:122-135); [N] is the
    number of columns of the CoM trajectory, [ph] is contact_phase. *)
Definition switch (N : nat) (ph : nat -> phase) (i : Z) : list bop :=
  if (i =? 0)%Z then [RemoveLF n0]
  else if ((0 <? i) && (i <? Z.of_nat N - 1))%Z then
    let k := Z.to_nat i in
    if phase_eqb (ph k) (ph (k - 1)) then []
    else match ph k with
         | PLeft => [AddLF n0; RemoveRF n0]
         | PRight => [AddRF n0; RemoveLF n0]
         end
  else [].

(** One iteration: contact calls, computeProblemData (line 146), then the getters used
    on the solution (lines 159-186; any list of them). *)
Definition iteration (N : nat) (ph : nat -> phase) (i : Z) (t : K) (e : env K) (l : list (getter * vec K)) : list bop :=
  switch N ph i ++ [Compute t e] ++ map (fun p => Get (fst p) (snd p)) l.

(** Consecutive iterations from [i] on, each with the data met there; the loop may
    stop after any of them (lines 149-154). *)
Fixpoint loop (N : nat) (ph : nat -> phase) (i : Z) (l : list (K * env K * list (getter * vec K))) : list bop :=
  match l with
  | [] => []
  | (t, e, g) :: l' => iteration N ph i t e g ++ loop N ph (i + 1)%Z l'
  end.

End Walking.
Arguments conf : clear implicits.
Arguments biped : clear implicits.
Arguments bop : clear implicits.
