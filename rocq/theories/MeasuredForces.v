(** Measured external forces: src/contacts/measured-3d-force.cpp ("m3"),
    src/contacts/measured-6d-wrench.cpp ("m6").

    RobotWrapper::frameJacobianLocal calls pinocchio::getFrameJacobian (robot-wrapper.cpp:
    325-331), which wants a matrix of zeros and fills the columns of the joints that move the
    frame.  [f_sup]: is the column written; [f_J]: the values written.  Both are inputs of the
    model, as is the rotation of the frame.  With every column in [f_sup] the model also covers
    an implementation that writes the whole matrix.  Matrices and vectors of fixed size are
    functions.  The assertion that the frame exists (m3:20, m6:20) is not modelled. *)
From Coq Require Import List Arith Bool.
From Verif Require Import Scalar Outcome Linalg FrameTasks.
Import ListNotations.
Open Scope nat_scope.

Section MF.
Context {K : num}.
Record jdata := mkJd { f_R : nat -> nat -> K; f_J : nat -> nat -> K; f_sup : nat -> bool }.
(** getFrameJacobian(model, data, index, LOCAL, J). *)
Definition fill (d : jdata) (J : nat -> nat -> K) : nat -> nat -> K := fun r c => if f_sup d c then f_J d r c else J r c.
(** Members m_fext, m_J, m_computedTorques, m_local_frame; [e_nv] is robot.nv().  m_J_rotated
    is overwritten before every use. *)
Record meas := mkMeas { e_nv : nat; e_f : nat -> K; e_J : nat -> nat -> K; e_tau : vec K; e_local : bool }.
(** Constructors m3:18-31, m6:16-29. *)
Definition meas_new (nv : nat) : meas := mkMeas nv (fun _ => n0) (fun _ _ => n0) (vzero nv) true.
Inductive eop := EForce (f : nat -> K) | ELocal (b : bool) | ECompute (d : jdata).
(** J.transpose() * f for an n-row matrix. *)
Definition tmul (n nv : nat) (J : nat -> nat -> K) (f : nat -> K) : vec K := mkVec nv (fun c => nsum n (fun r => J r c * f r)%num).
(** Measured6Dwrench::computeJointTorques m6:31-49: the Jacobian is written into the member.  *)
Definition m6_compute (s : meas) (d : jdata) : meas :=
  let J := fill d (e_J s) in
  let J' := if e_local s then J else act_mat (f_R d) J in
  mkMeas (e_nv s) (e_f s) J' (tmul 6 (e_nv s) J' (e_f s)) (e_local s).
(** Measured3Dforce::computeJointTorques m3:33-55: a local matrix of zeros is filled, the
    member receives its upper three rows. *)
Definition m3_compute (s : meas) (d : jdata) : meas :=
  let J := fill d (fun _ _ => n0) in
  let J' := if e_local s then J else act_mat (f_R d) J in
  mkMeas (e_nv s) (e_f s) J' (tmul 3 (e_nv s) J' (e_f s)) (e_local s).
(** setMeasuredContactForce m3:57-59, m6:51-53; useLocalFrame m3:65-67, m6:59-61.  The result
    is the vector returned by computeJointTorques. *)
Definition meas_step (six : bool) (s : meas) (o : eop) : outcome meas (option (vec K)) :=
  match o with
  | EForce f => Ret (mkMeas (e_nv s) f (e_J s) (e_tau s) (e_local s)) None
  | ELocal b => Ret (mkMeas (e_nv s) (e_f s) (e_J s) (e_tau s) b) None
  | ECompute d => let s' := if six then m6_compute s d else m3_compute s d in Ret s' (Some (e_tau s'))
  end.
End MF.
Arguments jdata : clear implicits.
Arguments meas : clear implicits.
Arguments eop : clear implicits.
