(** RobotWrapper (src/robots/robot-wrapper.cpp, "rw"): motor inertias, mass matrix and
    frame kinematics.  pinocchio::Data is an argument: placements and spatial velocities
    and accelerations of the joints, and the mass matrix. *)
From Coq Require Import List Arith Bool ZArith Lia.
From Verif Require Import Scalar Outcome Linalg.
Import ListNotations.
Open Scope list_scope.
Open Scope nat_scope.

Section RM.
Context {K : num}.
(** Constructors rw:21-74: is the base fixed.  The one with only a model (rw:45-53) takes
    every model as floating. *)
Inductive rctor := CUrdf | CUrdfRoot | CModel | CModelFixed | CModelFloating.
Definition fixed_base (c : rctor) : bool := match c with CUrdf | CModelFixed => true | _ => false end.
Record robot := mkRobot { r_nv : nat; r_na : nat; r_rotor : vec K; r_gear : vec K; r_Md : vec K; r_M : mat K }.
(** init (rw:76-81); a negative number of joints is an assertion failure in setZero. *)
Definition robot_new (c : rctor) (nv : nat) : option robot :=
  let na := if fixed_base c then nv else nv - 6 in
  do _ <- guard (fixed_base c || (6 <=? nv));
  Some (mkRobot nv na (vzero na) (vzero na) (vzero na) (mzero nv nv)).
(** updateMd (rw:127-130). *)
Definition update_Md (r : robot) : vec K := mkVec (vlen (r_gear r)) (fun i => (vget (r_gear r) i * (vget (r_gear r) i * vget (r_rotor r) i))%num).
Definition with_Md (r : robot) : robot := mkRobot (r_nv r) (r_na r) (r_rotor r) (r_gear r) (update_Md r) (r_M r).
(** rotor_inertias and gear_ratios (rw:109-125), mass (rw:151-155) of data.M = [D]. *)
Inductive rop := RRotor (v : vec K) | RGear (v : vec K) | RMass (D : mat K).
Definition robot_step (r : robot) (o : rop) : outcome robot (option (mat K)) :=
  match o with
  | RRotor v => if vlen v =? vlen (r_rotor r) then Ret (with_Md (mkRobot (r_nv r) (r_na r) v (r_gear r) (r_Md r) (r_M r))) None else Exc r
  | RGear v => if vlen v =? vlen (r_gear r) then Ret (with_Md (mkRobot (r_nv r) (r_na r) (r_rotor r) v (r_Md r) (r_M r))) None else Exc r
  | RMass D =>
      let d := Nat.min (mrows D) (mcols D) in
      if (r_na r <=? d) && (vlen (r_Md r) =? r_na r) then
        let M := mkMat (mrows D) (mcols D) (fun i j => if (i =? j) && (d - r_na r <=? i) && (i <? d) then (mget D i j + vget (r_Md r) (i - (d - r_na r)))%num else mget D i j) in
        Ret (mkRobot (r_nv r) (r_na r) (r_rotor r) (r_gear r) (r_Md r) M) (Some M)
      else Undef
  end.
(** computeAllTerms (rw:95-96): the strict lower triangle is overwritten with the upper. *)
Definition symmetrise (M : mat K) : mat K := mkMat (mrows M) (mcols M) (fun i j => if j <? i then mget M j i else mget M i j).

(** * Frames *)
Definition crossf (a b : nat -> K) (i : nat) : K :=
  match i with
  | 0 => (a 1 * b 2 - a 2 * b 1)%num
  | 1 => (a 2 * b 0 - a 0 * b 2)%num
  | _ => (a 0 * b 1 - a 1 * b 0)%num
  end.
Definition mul3 (A B : nat -> nat -> K) (i j : nat) : K := nsum 3 (fun k => (A i k * B k j)%num).
Definition app3 (A : nat -> nat -> K) (x : nat -> K) (i : nat) : K := nsum 3 (fun k => (A i k * x k)%num).
Definition tapp3 (A : nat -> nat -> K) (x : nat -> K) (i : nat) : K := nsum 3 (fun k => (A k i * x k)%num).
Record se3 := mkSE3 { p_R : nat -> nat -> K; p_p : nat -> K }.
Record motion := mkMotion { m_lin : nat -> K; m_ang : nat -> K }.
(** pinocchio::SE3: act on a placement, act and actInv on a motion. *)
Definition se3_act (M N : se3) : se3 := mkSE3 (mul3 (p_R M) (p_R N)) (fun i => (app3 (p_R M) (p_p N) i + p_p M i)%num).
Definition mot_act (M : se3) (m : motion) : motion :=
  let w := app3 (p_R M) (m_ang m) in mkMotion (fun i => (app3 (p_R M) (m_lin m) i + crossf (p_p M) w i)%num) w.
Definition mot_act_inv (M : se3) (m : motion) : motion :=
  mkMotion (tapp3 (p_R M) (fun i => (m_lin m i - crossf (p_p M) (m_ang m) i)%num)) (tapp3 (p_R M) (m_ang m)).
(** Model frames: parent joint and placement; data: oMi, v, a. *)
Record model := mkModel { mo_frames : list (nat * se3) }.
Record data := mkData { d_oMi : list se3; d_v : list motion; d_a : list motion }.
(** Reading vector<...> beyond its end is undefined, a frame index too large throws. *)
Definition frame_of {B} (m : model) (idx : nat) (f : nat -> se3 -> option B) : outcome unit B :=
  match nth_error (mo_frames m) idx with
  | None => Exc tt
  | Some (j, P) => match f j P with Some b => Ret tt b | None => Undef end
  end.
(** framePosition rw:203-220. *)
Definition frame_position (m : model) (d : data) (idx : nat) : outcome unit se3 := frame_of m idx (fun j P => do o <- nth_error (d_oMi d) j; Some (se3_act o P)).
(** frameVelocity rw:222-239. *)
Definition frame_velocity (m : model) (d : data) (idx : nat) : outcome unit motion := frame_of m idx (fun j P => do v <- nth_error (d_v d) j; Some (mot_act_inv P v)).
(** frameAcceleration rw:252-269. *)
Definition frame_acceleration (m : model) (d : data) (idx : nat) : outcome unit motion := frame_of m idx (fun j P => do a <- nth_error (d_a d) j; Some (mot_act_inv P a)).
(** frameClassicAcceleration rw:282-304. *)
Definition classic (a v : motion) : motion := mkMotion (fun i => (m_lin a i + crossf (m_ang v) (m_lin v) i)%num) (m_ang a).
Definition frame_classic (m : model) (d : data) (idx : nat) : outcome unit motion :=
  frame_of m idx (fun j P => do a <- nth_error (d_a d) j; do v <- nth_error (d_v d) j; Some (classic (mot_act_inv P a) (mot_act_inv P v))).
(** The three WorldOriented functions rw:241-250, 271-280, 306-315: the placement
    oMi_rotation_only is default-constructed, only its rotation is assigned; [junk] is its
    translation, which nothing sets. *)
Definition world_oriented (junk : nat -> K) (m : model) (d : data) (idx : nat) (x : outcome unit motion) : outcome unit motion :=
  match frame_position m d idx with
  | Ret _ P => match x with Ret _ l => Ret tt (mot_act (mkSE3 (p_R P) junk) l) | Exc s => Exc s | Undef => Undef end
  | Exc s => Exc s
  | Undef => Undef
  end.
Definition frame_velocity_world junk m d idx := world_oriented junk m d idx (frame_velocity m d idx).
Definition frame_acceleration_world junk m d idx := world_oriented junk m d idx (frame_acceleration m d idx).
Definition frame_classic_world junk m d idx := world_oriented junk m d idx (frame_classic m d idx).
End RM.
Arguments robot : clear implicits.
Arguments rop : clear implicits.
Arguments se3 : clear implicits.
Arguments motion : clear implicits.
Arguments model : clear implicits.
Arguments data : clear implicits.
