(** Model of the two threads of exercizes/ex_3_biped_balance_with_gui.py: the simulation
    loop run_simu (lines 174-197) and the buttons of the window made by create_gui (lines
    88-104 and 156-163), each started as a thread (lines 285-289).
    Python runs one binding call at a time (its global lock is held during the calls), so an execution is an interleaving of these
    calls. Several calls of one thread are not protected against the other thread.

    Simplifications: as in Walking.v; the references that the loop sets and that the sliders
    change (lines 69-85, 182-185) do not touch the formulation and are dropped, and so are
    push_robot and the viewer; the tests of the flags and the calls made by one button
    (tsid_biped.py:263-301) are one event, because only one of them, addRigidContact or
    removeRigidContact, touches the formulation and only buttons touch the flags. The solver is
    SolverHQuadProgFast (tsid_biped.py:157). *)
From Coq Require Import String List Arith Bool.
From Verif Require Import Scalar Outcome Linalg Constraint Formulation PyData Walking Solvers.
Import ListNotations.
Open Scope nat_scope.

Section Gui.
Context {K : num}.
Variables (dbg : bool) (C : conf K).

(** switch_contact_RF and switch_contact_LF, lines 88-104. *)
Definition pressed (b : biped K) (right : bool) : bop K :=
  if right then (if b_rf b then RemoveRF n0 else AddRF n0)
  else (if b_lf b then RemoveLF n0 else AddLF n0).

(** Where the simulation thread is: before computeProblemData (line 187), holding the HQPData
    that it returned, holding the vector x of the HQPOutput that solve returned (line 189), out of
    the loop (lines 190-192). *)
Inductive place := Ready | Holds (d : pydata (K := K)) | Solved (x : vec K) | Stopped.
Record gui := mkGui { g_b : biped K; g_at : place; g_q : sst K }.

(** [Solve]: [jk], [ans], [x] are unspecified memory and the answer of the external solver. *)
Inductive event :=
| Press (right : bool)
| Comp (t : K) (e : env K)
| Solve (jk : junk K) (ans : code Fast) (x : vec K)
| Read.

(** The constraints that a solver finds behind the pointers of an HQPData object. *)
Fixpoint through (l : list (K * option (constr K))) : option (level K) :=
  match l with
  | [] => Some []
  | (w, Some c) :: l' => do r <- through l'; Some ((w, c) :: r)
  | (_, None) :: _ => None
  end.
Fixpoint levels_through (l : list (list (K * option (constr K)))) : option (hqpdata K) :=
  match l with
  | [] => Some []
  | x :: l' => do a <- through x; do r <- levels_through l'; Some (a :: r)
  end.

(** One call. The result is that of getAccelerations (line 195). *)
Definition gstep (g : gui) (ev : event) : outcome gui (option (vec K)) :=
  match ev, g_at g with
  | Press r, _ =>
      match bstep dbg C (g_b g) (pressed (g_b g) r) with
      | Ret b _ => Ret (mkGui b (g_at g) (g_q g)) None
      | Exc b => Exc (mkGui b (g_at g) (g_q g))
      | Undef => Undef
      end
  | Comp t e, Ready =>
      match py_compute dbg (b_f (g_b g)) t e with
      | Ret s d => Ret (mkGui (mkBiped s (b_rf (g_b g)) (b_lf (g_b g))) (Holds d) (g_q g)) None
      | Exc s => Exc (mkGui (mkBiped s (b_rf (g_b g)) (b_lf (g_b g))) Ready (g_q g))
      | Undef => Undef
      end
  | Solve jk ans x, Holds d =>
      match levels_through (py_view (b_f (g_b g)) d) with
      | None => Undef
      | Some P =>
          match solve Fast dbg jk (g_q g) P ans x with
          | Ret q (St_optimal, y) => Ret (mkGui (g_b g) (Solved y) q) None
          | Ret q _ => Ret (mkGui (g_b g) Stopped q) None
          | Exc q => Exc (mkGui (g_b g) (Holds d) q)
          | Undef => Undef
          end
      end
  | Read, Solved x =>
      match get (b_f (g_b g)) GAcc x with
      | Ret s v => Ret (mkGui (mkBiped s (b_rf (g_b g)) (b_lf (g_b g))) Ready (g_q g)) (Some v)
      | Exc s => Exc (mkGui (mkBiped s (b_rf (g_b g)) (b_lf (g_b g))) (Solved x) (g_q g))
      | Undef => Undef
      end
  | _, _ => Ret g None
  end.

(** The thread is where it makes this call. *)
Definition enabled (g : gui) (ev : event) : Prop :=
  match ev, g_at g with
  | Press _, _ | Comp _ _, Ready | Solve _ _ _, Holds _ | Read, Solved _ => True
  | _, _ => False
  end.
End Gui.
Arguments gui : clear implicits.
Arguments event : clear implicits.
Arguments place : clear implicits.
