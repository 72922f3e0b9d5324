(** Model of the loop of exercizes/test_cop_task.py: the walk of ex_4_walking.py in which the weight of
    the centre of pressure task is set when the robot starts walking, and the missing foot is put back
    at the end. The biped is the one of Walking.v (exercizes/tsid_biped.py), with one more call.

    Simplifications: those of Walking.v; the references (lines 114-122) are part of the data of the
    tasks. *)
From Coq Require Import String List Arith Bool ZArith.
From Verif Require Import Scalar Outcome Linalg Constraint Formulation Walking.
Import ListNotations.
Open Scope string_scope.
Open Scope list_scope.
Open Scope nat_scope.

Section CopWalk.
Context {K : num}.
Variable dbg : bool.

(** Calls of the user: those of the biped, and updateTaskWeight on its formulation
    (test_cop_task.py:95; inverse-dynamics-formulation-acc-force.cpp:150-163 in Formulation.v). *)
Inductive call := Do (o : bop K) | Weigh (n : string) (w : K).
Definition cstep (C : conf K) (b : biped K) (c : call) : outcome (biped K) (fout K) :=
  match c with
  | Do o => bstep dbg C b o
  | Weigh n w => onb b (b_rf b, b_lf b) (step dbg (b_f b) (OUpdTask n w))
  end.

(** Calls at the beginning of iteration [i], lines 91-112; [w] is the 1e-4 of line 95. *)
Definition cop_switch (N : nat) (ph : nat -> phase) (w : K) (i : Z) : list call :=
  if (i =? 0)%Z then [Do (RemoveLF n0); Weigh "task-cop" w]
  else if ((0 <? i) && (i <? Z.of_nat N - 1))%Z then
    let k := Z.to_nat i in
    if phase_eqb (ph k) (ph (k - 1)) then []
    else match ph k with
         | PLeft => [Do (AddLF n0); Do (RemoveRF n0)]
         | PRight => [Do (AddRF n0); Do (RemoveLF n0)]
         end
  else if (i =? Z.of_nat N)%Z then
    match ph (N - 1) with PLeft => [Do (AddRF n0)] | PRight => [Do (AddLF n0)] end
  else [].

(** One iteration: contact calls, computeProblemData (line 124), then the getters used on the solution
    (lines 137-165; any list of them). *)
Definition cop_iteration (N : nat) (ph : nat -> phase) (w : K) (i : Z) (t : K) (e : env K) (l : list (getter * vec K)) : list call :=
  cop_switch N ph w i ++ [Do (Compute t e)] ++ map (fun p => Do (Get (fst p) (snd p))) l.

(** Consecutive iterations from [i] on; the loop may stop after any of them (lines 127-132). *)
Fixpoint cop_loop (N : nat) (ph : nat -> phase) (w : K) (i : Z) (l : list (K * env K * list (getter * vec K))) : list call :=
  match l with
  | [] => []
  | (t, e, g) :: l' => cop_iteration N ph w i t e g ++ cop_loop N ph w (i + 1)%Z l'
  end.
End CopWalk.
Arguments call : clear implicits.
