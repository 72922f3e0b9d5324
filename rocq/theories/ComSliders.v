(** The centre of mass in exercizes/ex_3_biped_balance_with_gui.py ("ex3"): sliders that move its
    reference, and pushes.

    Simplifications: real numbers; as in ComProgram.v the robot, the other tasks and the solver are
    arbitrary inputs.  The GUI thread runs between two periods, at most one slider event per period
    counts (the last one); the calls into the library hold Python's interpreter lock, so that
    setReference and computeNext do not overlap.  The contact buttons and foot sliders act on other
    tasks and contacts (C109). *)
From Coq Require Import String List Arith Bool Reals.
From Verif Require Import Scalar Outcome Linalg Constraint RSum MaskReal FrameTasks ComProgram.
Import ListNotations.
Open Scope list_scope.
Open Scope nat_scope.

(** What happens in one period: the slider values if a slider of the centre of mass was moved
    before it, the data the task reads, the accelerations of the solution, and, if the push
    button was pressed, the data the task reads at the state after the period (ex3:211). *)
Record period := mkPeriod { e_slide : option (nat -> R); e_d : cdata Rnum; e_dv : vec Rnum; e_push : option (cdata Rnum) }.
Section Gui.
Variables (com_0 : nat -> R).
Local Notation zstep := (@com_step Rnum Rtrunc).
(** ex3:69-71; the sample of TrajectoryEuclidianConstant (src/trajectories/trajectory-euclidian.cpp:20-35)
    is its position, velocity and acceleration stay zero
    (include/tsid/trajectories/trajectory-base.hpp:60-64). *)
Definition slide (r : nat -> R) (o : option (nat -> R)) : nat -> R :=
  match o with Some x => fun k => (com_0 k + 1 / 100 * x k)%R | None => r end.
(** ex3:182, 187 (the centre of mass task), 199 and 211. *)
Definition gui_turn (r : nat -> R) (s : comt Rnum) (e : period) : option (comt Rnum * (constr Rnum * (nat -> R))) :=
  do s <- go (zstep s (ZRef (vec3r r) (@vzero Rnum 3) (@vzero Rnum 3)));
  do s <- go (zstep s (ZCompute (e_d e)));
  let out := (h_c (z_h s), vget (h_ad (z_h s))) in
  match e_push e with
  | None => Some (s, out)
  | Some d => do s <- go (zstep s (ZCompute d)); Some (s, out)
  end.
(** ex3:179-214: what each period asked of the centre of mass. *)
Fixpoint gui_loop (r : nat -> R) (s : comt Rnum) (l : list period) : option (comt Rnum * list (constr Rnum * (nat -> R))) :=
  match l with
  | [] => Some (s, [])
  | e :: l => let r := slide r (e_slide e) in do (s, o) <- gui_turn r s e; do (s, os) <- gui_loop r s l; Some (s, o :: os)
  end.
(** tsid_biped.py:86-88, 139-140, then ex3:174. *)
Definition gui_program (nv : nat) (jk : vec Rnum) (kp : R) (com_ref : nat -> R) (l : list period) : option (list (constr Rnum * (nat -> R))) :=
  do s <- com_build nv jk kp; do (_, os) <- gui_loop com_ref s l; Some os.
End Gui.
