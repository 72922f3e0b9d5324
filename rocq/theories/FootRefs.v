(** One foot of the exercise biped and its references: exercizes/tsid_biped.py ("tb"; the
    right foot is like the left one) and the foot calls of exercizes/ex_4_walking.py.

    The foot has a contact and a TaskSE3Equality on the same frame.  Python gets samples from
    the trajectory and vectors from the samples by value
    (bindings/python/trajectories/trajectory-se3.hpp:43-45, trajectory-base.hpp:103-111), so
    trajectory, sample and the three arrays are five separate objects.

    Simplifications: the frame of the foot in formulation.data() is its placement at the last
    computeProblemData; computeProblemData computes the task of the foot, and the motion task
    of the contact while the contact is in the formulation (Walking.v has the formulation). *)
From Coq Require Import String List Arith Bool ZArith.
From Verif Require Import Scalar Outcome Linalg Constraint FrameTasks ContactMotion Walking.
From Verif Require ConstTraj.
Import ListNotations.
Open Scope list_scope.
Open Scope nat_scope.

Section Foot.
Context {K : num}.
Variable toZ : K -> Z.
Variable log3 : (nat -> nat -> K) -> nat -> K.

(** leftFootTask, contactLF, trajLF, sampleLF, sample_LF_pos/vel/acc, the placement of the
    frame in formulation.data(), contact_LF_active. *)
Record foot := mkFoot {
  k_task : se3t K; k_contact : se3t K; k_traj : ConstTraj.sample K; k_sample : ConstTraj.sample K;
  k_pos : vec K; k_vel : vec K; k_acc : vec K; k_data : ConstTraj.place K; k_on : bool }.

(** Calls: remove_contact_LF (tb:271-277), add_contact_LF (tb:291-301), set_LF_3d_ref
    (tb:240-247), computeProblemData. *)
Inductive fcall := Leave | Land | Aim (p v a : vec K) | Period (d : fdata K).

(** tb:66-80 (contact), tb:107-112 (task and trajectory), tb:147-150 (samples). [M] is
    the placement in the data of the second computeProblemData (tb:56-58, 79); gains are the
    same along the six axes. *)
Definition foot_new (jc jt : vec K) (cname tname : string) (nv : nat) (kpc kdc kpt kdt : K) (M : ConstTraj.place K) : option foot :=
  let all x := mkVec 6 (fun _ => x) in
  do c0 <- six_new toZ jc cname nv;
  do c <- run (six_step toZ log3) c0 [MKp jc (all kpc); MKd jc (all kdc); MRef (fst M) (snd M)];
  do t0 <- se3_new toZ jt tname nv;
  do t <- run (se3_step toZ log3) t0 [XKp (all kpt); XKd (all kdt)];
  let tr := ConstTraj.se3_new (Some M) in
  Some (mkFoot t c tr tr (ConstTraj.t_val tr) (ConstTraj.t_der tr) (ConstTraj.t_sec tr) M true).

(** numpy's [a[:3] = p]: three entries, or one for all; other sizes raise ValueError. *)
Definition head_put (a p : vec K) : option (vec K) :=
  if (vlen p =? 3) || (vlen p =? 1) then
    Some (mkVec (vlen a) (fun i => if i <? 3 then vget p (if vlen p =? 1 then 0 else i) else vget a i))
  else None.

Definition foot_step (s : foot) (o : fcall) : outcome foot unit :=
  match o with
  | Leave =>                                                        (* tb:272-277 *)
      let tr := ConstTraj.se3_set (k_data s) in
      let put t b := mkFoot t (k_contact s) tr (k_sample s) (k_pos s) (k_vel s) (k_acc s) (k_data s) b in
      match se3_step toZ log3 (k_task s) (XRef (ConstTraj.t_val tr) (ConstTraj.t_der tr) (ConstTraj.t_sec tr)) with
      | Ret t _ => Ret (put t false) tt | Exc t => Exc (put t (k_on s)) | Undef => Undef
      end
  | Land =>                                                         (* tb:292-301 *)
      let put c b := mkFoot (k_task s) c (k_traj s) (k_sample s) (k_pos s) (k_vel s) (k_acc s) (k_data s) b in
      match six_step toZ log3 (k_contact s) (MRef (fst (k_data s)) (snd (k_data s))) with
      | Ret c _ => Ret (put c true) tt | Exc c => Exc (put c (k_on s)) | Undef => Undef
      end
  | Aim p v a =>                                                    (* tb:241-247 *)
      let put t sm x y z := mkFoot t (k_contact s) (k_traj s) sm x y z (k_data s) (k_on s) in
      match head_put (k_pos s) p with
      | None => Exc s
      | Some x =>
          match head_put (k_vel s) v with
          | None => Exc (put (k_task s) (k_sample s) x (k_vel s) (k_acc s))
          | Some y =>
              match head_put (k_acc s) a with
              | None => Exc (put (k_task s) (k_sample s) x y (k_acc s))
              | Some z =>
                  (* the setters of the sample assert that the size does not change
                     (bindings/python/trajectories/trajectory-base.hpp:75-95) *)
                  if (vlen x =? vlen (ConstTraj.t_val (k_sample s))) && (vlen y =? vlen (ConstTraj.t_der (k_sample s)))
                     && (vlen z =? vlen (ConstTraj.t_sec (k_sample s))) then
                    let sm := ConstTraj.mkSample x y z in
                    match se3_step toZ log3 (k_task s) (XRef x y z) with
                    | Ret t _ => Ret (put t sm x y z) tt | Exc t => Exc (put t sm x y z) | Undef => Undef
                    end
                  else Undef
              end
          end
      end
  | Period d =>
      match se3_step toZ log3 (k_task s) (XCompute d),
            (if k_on s then six_step toZ log3 (k_contact s) (MCompute d) else Ret (k_contact s) tt) with
      | Ret t _, Ret c _ => Ret (mkFoot t c (k_traj s) (k_sample s) (k_pos s) (k_vel s) (k_acc s) (d_R d, d_p d) (k_on s)) tt
      | _, _ => Undef
      end
  end.

(** ** The calls of one foot in the walking loop, ex_4_walking.py:119-146 *)
Definition foot_calls (left : bool) (l : list (bop K)) : list fcall :=
  flat_map (fun o => match o with
                     | RemoveLF _ => if left then [Leave] else [] | AddLF _ => if left then [Land] else []
                     | RemoveRF _ => if left then [] else [Leave] | AddRF _ => if left then [] else [Land]
                     | _ => [] end) l.
(** Iteration [i]; [ref k] are column k of x_LF_ref, dx_LF_ref and ddx_LF_ref (or of x_RF_ref,
    ...), [d] the frame at the state met there. *)
Definition foot_turn (left : bool) (N : nat) (ph : nat -> phase) (ref : nat -> vec K * vec K * vec K) (i : Z) (d : fdata K) : list fcall :=
  foot_calls left (switch N ph i) ++
  (if ((0 <=? i) && (i <? Z.of_nat N))%Z then let '(p, v, a) := ref (Z.to_nat i) in [Aim p v a] else []) ++ [Period d].
Fixpoint foot_loop (left : bool) (N : nat) (ph : nat -> phase) (ref : nat -> vec K * vec K * vec K) (i : Z) (l : list (fdata K)) : list fcall :=
  match l with
  | [] => []
  | d :: l' => foot_turn left N ph ref i d ++ foot_loop left N ph ref (i + 1)%Z l'
  end.
End Foot.
Arguments foot : clear implicits.
Arguments fcall : clear implicits.
