(** What the problem of the biped contains, as a function of the feet in contact only. *)
From Coq Require Import String List Arith Bool ZArith Permutation.
From Verif Require Import Scalar Outcome Linalg Constraint Formulation FormSpec Walking.
Import ListNotations.
Open Scope string_scope.
Open Scope list_scope.
Open Scope nat_scope.

Section Spec.
Context {K : num}.

Definition count (rf lf : bool) : nat := (if rf then 1 else 0) + (if lf then 1 else 0).
Definition feet (rf lf : bool) : list string :=
  (if rf then ["contact_rfoot"] else []) ++ (if lf then ["contact_lfoot"] else []).

(** Weighted constraints of the two levels: weight, name, kind, rows. *)
Definition foot_hard (C : conf K) (f : string) : list (K * (string * ckind * nat)) :=
  (if (n0 <=? w_contact C)%num then [] else [(n1, ((f ++ "_motion_task")%string, CEq, 6))]) ++
  [(n1, ((f ++ "_force_constraint")%string, CIneq, 17))].
Definition foot_soft (C : conf K) (f : string) : list (K * (string * ckind * nat)) :=
  (if (n0 <=? w_contact C)%num then [(w_contact C, ((f ++ "_motion_task")%string, CEq, 6))] else []) ++
  [(w_forceRef C, ((f ++ "_force_reg_task")%string, CEq, 6))].
Definition hard (C : conf K) (nv na : nat) (fs : list string) : list (K * (string * ckind * nat)) :=
  [(n1, ("base-dynamics", CEq, nv - na))] ++ flat_map (foot_hard C) fs ++
  (if (n0 <? w_torque_bounds C)%num then [(w_torque_bounds C, ("task-actuation-bounds", CIneq, na))] else []) ++
  (if (n0 <? w_joint_bounds C)%num then [(w_joint_bounds C, ("task-joint-bounds", CIneq, nv))] else []).
Definition soft (C : conf K) (fs : list string) : list (K * (string * ckind * nat)) :=
  flat_map (foot_soft C) fs ++
  [(w_com C, ("task-com", CEq, 3)); (w_cop C, ("task-cop", CEq, 3)); (w_am C, ("task-am", CEq, 3));
   (w_posture C, ("task-posture", CEq, n_posture C)); (w_foot C, ("task-left-foot", CEq, 6));
   (w_foot C, ("task-right-foot", CEq, 6))].

(** The same with the number of columns, as visible in the HQP data. *)
Definition wide (n : nat) (x : K * (string * ckind * nat)) : K * option (string * ckind * nat * nat) :=
  (fst x, Some (snd x, n)).

(** Problem of a biped with velocities [nv], [na] of them actuated, standing on the feet
    [rf], [lf]. *)
Definition stands (C : conf K) (nv na : nat) (rf lf : bool) (s : fstate K) : Prop :=
  Permutation (contact_names s) (feet rf lf) /\
  nVar s = nv + 12 * count rf lf /\
  nEq s = Z.of_nat ((nv - na) + if (n0 <=? w_contact C)%num then 0 else 6 * count rf lf) /\
  nIn s = Z.of_nat (17 * count rf lf + (if (n0 <? w_torque_bounds C)%num then na else 0)
                                     + (if (n0 <? w_joint_bounds C)%num then nv else 0)) /\
  exists l0 l1, hqp_shapes s = [l0; l1] /\
    Permutation l0 (map (wide (nVar s)) (hard C nv na (feet rf lf))) /\
    Permutation l1 (map (wide (nVar s)) (soft C (feet rf lf))).

(** Weights that addMotionTask, addForceTask and addActuationTask accept. *)
Definition conf_ok (C : conf K) : Prop :=
  ((n0 : K) <=? n0)%num = true /\
  (n0 <=? w_com C)%num = true /\ (n0 <=? w_cop C)%num = true /\ (n0 <=? w_am C)%num = true /\
  (n0 <=? w_posture C)%num = true /\ (n0 <=? w_foot C)%num = true /\
  ((n0 <? w_torque_bounds C)%num = true -> (n0 <=? w_torque_bounds C)%num = true) /\
  ((n0 <? w_joint_bounds C)%num = true -> (n0 <=? w_joint_bounds C)%num = true).
(** Robot data of the right size. *)
Definition sizes_ok (nv : nat) (e : env K) : Prop :=
  mrows (e_mass e) = nv /\ mcols (e_mass e) = nv /\ vlen (e_nle e) = nv.

(** Usage rules: a foot is added when its flag is down, removed without transition time
    when its flag is up; the data given to computeProblemData has the announced sizes and
    the getters are given vectors with nVar entries. *)
Definition data_rule (b : biped K) (o : bop K) : Prop :=
  match o with
  | Compute _ e => env_ok (b_f b) e
  | Get g x => vlen x = nVar (b_f b) /\
      match g with GForceOf _ => f_dec (b_f b) = true -> vlen (f_f (b_f b)) = f_k (b_f b) | _ => True end
  | _ => True
  end.
Definition flag_rule (b : biped K) (o : bop K) : Prop :=
  match o with
  | RemoveRF T => b_rf b = true /\ (n0 <? T)%num = false
  | RemoveLF T => b_lf b = true /\ (n0 <? T)%num = false
  | AddRF _ => b_rf b = false
  | AddLF _ => b_lf b = false
  | _ => True
  end.

(** A program of calls, each returning normally and following the data rule. *)
Inductive served (dbg : bool) (C : conf K) : biped K -> list (bop K) -> biped K -> Prop :=
| served_nil b : served dbg C b [] b
| served_cons b o b1 r l b' : data_rule b o -> bstep dbg C b o = Ret b1 r -> served dbg C b1 l b' ->
                              served dbg C b (o :: l) b'.

(** Feet on the ground in iteration [i] of the walking loop: both before the start,
    afterwards the one named by contact_phase, whose changes are followed up to the
    entry N - 2. *)
Definition support (N : nat) (ph : nat -> phase) (i : Z) : bool * bool :=
  if (i <? 0)%Z then (true, true)
  else match ph (Nat.min (Z.to_nat i) (N - 2)) with PRight => (true, false) | PLeft => (false, true) end.
End Spec.
