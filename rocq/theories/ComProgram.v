(** The centre of mass in the balance exercises exercizes/ex_2.py ("ex2") and
    exercizes/ex_1.py, which is the same loop with a constant reference (amplitude 0).

    Simplifications: real numbers; the robot, the contacts, the other tasks and the solver are
    inputs: [d i] is what the centre of mass task reads from the robot in period i, [dv i] the
    accelerations taken from the solution.  They are arbitrary, so that nothing is assumed about
    the other tasks.  The loop ends early when the solver fails (ex2:53-55): the number of turns
    is arbitrary.  Printing, display and waiting are left out.  t is a sum of periods (ex2:94). *)
From Coq Require Import String List Arith Bool Reals Lia Lra.
From Verif Require Import Scalar Outcome Linalg Constraint RSum MaskReal FrameTasks.
Import ListNotations.
Open Scope string_scope.
Open Scope list_scope.
Open Scope nat_scope.

(** One column of com_pos, com_vel, com_acc, com_pos_ref, com_vel_ref, com_acc_ref, com_acc_des
    (ex2:60-66), and the constraint of the task that computeProblemData handed to the solver. *)
Record column := mkColumn { n_pos : nat -> R; n_vel : nat -> R; n_acc : nat -> R; n_posr : nat -> R; n_velr : nat -> R; n_accr : nat -> R; n_ades : nat -> R;
  n_constr : constr Rnum }.
Definition go {S A} (o : outcome S A) : option S := match o with Ret s _ => Some s | _ => None end.
Definition vec3r (f : nat -> R) : vec Rnum := @mkVec Rnum 3 f.
Section Program.
Variables (nv : nat) (jk : vec Rnum) (kp dt : R) (offset amp two_pi_f : nat -> R).
Variables (d : nat -> cdata Rnum) (dv : nat -> vec Rnum).
Local Notation zstep := (@com_step Rnum Rtrunc).
(** exercizes/tsid_biped.py:86-88. *)
Definition com_build : option (comt Rnum) :=
  do s <- @com_new Rnum Rtrunc jk "task-com" nv;
  do s <- go (zstep s (ZKp (vec3r (fun _ => kp))));
  go (zstep s (ZKd (vec3r (fun _ => 2 * sqrt kp)%R))).
(** ex2:30-31. *)
Definition two_pi_f_amp (k : nat) : R := (two_pi_f k * amp k)%R.
Definition two_pi_f_squared_amp (k : nat) : R := (two_pi_f k * two_pi_f_amp k)%R.
(** ex2:42-46, the centre of mass task in ex2:49 (src/tasks/task-com-equality.cpp:93-130), ex2:60-66. *)
Definition com_turn (i : nat) (t : R) (s : comt Rnum) : option (comt Rnum * column) :=
  let pos := fun k => (offset k + amp k * sin (two_pi_f k * t))%R in
  let vel := fun k => (two_pi_f_amp k * cos (two_pi_f k * t))%R in
  let acc := fun k => (- two_pi_f_squared_amp k * sin (two_pi_f k * t))%R in
  do s <- go (zstep s (ZRef (vec3r pos) (vec3r vel) (vec3r acc)));
  do s <- go (zstep s (ZCompute (d i)));
  do a <- mt_acc false (z_h s) (dv i);
  Some (s, mkColumn (g_p (d i)) (g_v (d i)) (vget a) pos vel acc (vget (h_ad (z_h s))) (h_c (z_h s))).
(** ex2:36-94: [n] turns from column [i] on. *)
Fixpoint com_loop (n i : nat) (t : R) (s : comt Rnum) : option (comt Rnum * list column) :=
  match n with
  | O => Some (s, [])
  | S n => do (s, c) <- com_turn i t s; do (s, l) <- com_loop n (S i) (t + dt)%R s; Some (s, c :: l)
  end.
Definition com_program (n : nat) : option (comt Rnum * list column) := do s <- com_build; com_loop n 0 0%R s.
End Program.
