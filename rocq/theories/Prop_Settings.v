(** Properties C77 and C78: settings of the QP back-ends over every history of one solver
    object, and copies of a SolverOSQP.  Only statements; the proofs are in
    SolverSettings.v. *)
From Coq Require Import List Arith Bool QArith Lia.
From Verif Require Import Scalar Outcome Linalg Constraint Solvers SolverSpec SolverSizes SolverMain SolverRefute SolverSettings.
Import ListNotations.
Open Scope nat_scope.

(** ** C77 settings *)
Theorem C77_getters : forall (K : num) b dbg (lib : @library K) l jk hb st s, run (cstep b dbg lib) (cnew b lib jk hb st) l = Some s ->
  t_iter (snd s) = asked b (ask_iter b) 1000 l /\ t_time (snd s) = asked b (ask_time b) (nofQ 100) l /\
  t_warm (snd s) = asked b (ask_warm b) true l.
Proof. exact (@getters). Qed.
Print Assumptions C77_getters.
Theorem C77_in_use : forall (K : num) b dbg (lib : @library K) l jk hb st s, run (cstep b dbg lib) (cnew b lib jk hb st) l = Some s ->
  (b = Prox \/ b = Osqp) -> sizes (fst s) <> (0, 0, 0) ->
  u_sizes (snd s) = sizes (fst s) /\
  (forall p d, initial b p = Some d -> u_par (snd s) p = asked b (ask_par b p) (nofQ d) l) /\
  (Forall (no_zero b) l -> u_iter (snd s) = asked b (ask_iter b) 1000 l) /\
  (dbg = false -> u_verb (snd s) = asked b (ask_verb b) false l).
Proof. exact (@parameters). Qed.
Print Assumptions C77_in_use.
Theorem C77_library : forall (K : num) b dbg (lib : @library K) l jk hb st s, run (cstep b dbg lib) (cnew b lib jk hb st) l = Some s ->
  quadprog b -> u_iter (snd s) = asked b (ask_lib b lib) (l_iter lib) l.
Proof. exact (@library_iterations). Qed.
Print Assumptions C77_library.
Theorem C77_answers : forall (K : num) b dbg (lib : @library K) q t,
  (forall n, exists s r, cstep b dbg lib (q, t) (CIter b n) = Ret s r /\ fst s = q /\
     r = match b with Eiq | Qpmad => negb (n =? 0) | Fast | Rt _ _ _ => l_accepts lib n | _ => true end) /\
  (forall x, exists s, cstep b dbg lib (q, t) (CTime b x) = Ret s (negb (x <=? n0)%num) /\ fst s = q).
Proof. exact (@answers). Qed.
Print Assumptions C77_answers.
(** The requested verbosity is lost in a debug build. *)
Theorem C77_debug_refuted : forall (K : num) b dbg (lib : @library K) q t o q' t', dbg = true -> (b = Prox \/ b = Osqp) -> 0 < t_iter t ->
  after (cstep b dbg lib (q, t) (CCall b o)) = Some (q', t') -> sizes q' <> sizes q -> u_verb t' = true /\ t_verb t' = true.
Proof. exact (@debug_verbose). Qed.
Print Assumptions C77_debug_refuted.
Theorem C77_zero_refuted : forall (K : num) b dbg (lib : @library K) l jk hb st q t o q' t', (b = Prox \/ b = Osqp) ->
  run (cstep b dbg lib) (cnew b lib jk hb st) l = Some (q, t) ->
  exists t0, cstep b dbg lib (q, t) (CIter b 0) = Ret (q, t0) true /\ u_iter t0 = 0 /\
    t_iter t0 = asked b (ask_iter b) 1000 l /\ t_iter t0 <> 0 /\
    (after (cstep b dbg lib (q, t0) (CCall b o)) = Some (q', t') ->
       u_iter t' = if same_sizes q q' then 0 else asked b (ask_iter b) 1000 l).
Proof. exact (@zero_iterations). Qed.
Print Assumptions C77_zero_refuted.
(** Settings before and after a solve; the solve changes the sizes. *)
Example C77_case : forall (K : num) b dbg (lib : @library K) jk hb st ans x (r1 r2 : K), (b = Prox \/ b = Osqp) ->
  exists s, run (cstep b dbg lib) (cnew b lib jk hb st)
      [CPar b Rho r1; CIter b 7; CIter b 5; CVerb b true; CCall b (SSolve b demo jk ans x); CPar b EpsAbs r2; CVerb b false] = Some s /\
    sizes (fst s) <> (0, 0, 0) /\ initial b Rho <> None /\ u_par (snd s) Rho = r1 /\ u_par (snd s) EpsAbs = r2 /\ u_iter (snd s) = 5 /\
    u_par (snd s) EpsRel = nofQ 0 /\ (dbg = false -> u_verb (snd s) = false).
Proof.
  intros K b dbg lib jk hb st ans x r1 r2 T.
  destruct (demo_solved (K:=K) b dbg jk (solver_new b jk hb st) ans x) as (q & r & E & N);
    [destruct T as [-> | ->]; exact I|apply new_state|].
  pose (l := [CPar b Rho r1; CIter b 7; CIter b 5; CVerb b true; CCall b (SSolve b demo jk ans x); CPar b EpsAbs r2; CVerb b false]).
  assert (X : exists t, run (cstep b dbg lib) (cnew b lib jk hb st) l = Some (q, t)).
  { destruct T as [-> | ->]; subst l; unfold cnew; cbn [run cstep after set_iter Nat.eqb fst snd sstep]; rewrite E; cbn [after]; eexists; reflexivity. }
  destruct X as [t X]. exists (q, t). split; [exact X|].
  assert (Z : sizes (fst (q, t)) <> (0, 0, 0)) by (unfold sizes; cbn [fst]; rewrite N; discriminate).
  destruct (C77_in_use K b dbg lib l jk hb st (q, t) X T Z) as (_ & A & B & C). split; [exact Z|].
  assert (F : Forall (no_zero b) l) by (subst l; repeat constructor; discriminate).
  specialize (B F). destruct T as [-> | ->]; (split; [discriminate|]);
    (split; [rewrite (A Rho _ eq_refl); reflexivity|]); (split; [rewrite (A EpsAbs _ eq_refl); reflexivity|]); (split; [rewrite B; reflexivity|]);
    (split; [rewrite (A EpsRel _ eq_refl); reflexivity|]); intros D; rewrite (C D); reflexivity.
Qed.

(** ** C78 copies of a SolverOSQP *)
Theorem C78_same_size_undefined : forall (K : num) dbg (q : sst K) hb st n P cl1 jk ans x, pwf n P -> nth_error P 1 = Some cl1 -> cl1 <> [] ->
  0 < n -> q_n q = n -> solve Osqp dbg jk (copy_data q hb st) P ans x = Undef.
Proof. exact (@copy_fails). Qed.
Print Assumptions C78_same_size_undefined.
Theorem C78_other_size : forall (K : num) dbg (q : sst K) hb st n P jk jk0 ans x, pwf n P -> 0 < n -> q_n q <> n ->
  solve Osqp dbg jk (copy_data q hb st) P ans x = solve Osqp dbg jk (solver_new Osqp jk0 hb st) P ans x.
Proof. exact (@copy_fresh). Qed.
Print Assumptions C78_other_size.
Theorem C78_settings : forall (K : num) dbg (lib : @library K) s hb st o s',
  after (cstep Osqp dbg lib (osqp_copy lib s hb st) (CCall Osqp o)) = Some s' -> sizes (fst s') <> sizes (fst s) ->
  (forall p d, initial Osqp p = Some d -> u_par (snd s') p = t_par (snd s) p) /\ u_iter (snd s') = 1000 /\ t_iter (snd s') = 1000 /\
  t_time (snd s') = nofQ 100 /\ t_warm (snd s') = true /\ (dbg = false -> u_verb (snd s') = t_verb (snd s)).
Proof. exact (@copy_keeps). Qed.
Print Assumptions C78_settings.
(** A solver that has solved a problem solves it again; its copy does not. *)
Theorem C78_refuted : forall (K : num) dbg jk hb st a1 a2 (x1 x2 : vec K),
  exists q r q' r', solve Osqp dbg jk (solver_new Osqp jk hb st) demo a1 x1 = Ret q r /\
    solve Osqp dbg jk q demo a2 x2 = Ret q' r' /\
    solve Osqp dbg jk (copy_data q hb st) demo a2 x2 = Undef.
Proof.
  intros K dbg jk hb st a1 a2 x1 x2.
  destruct (demo_solved (K:=K) Osqp dbg jk (solver_new Osqp jk hb st) a1 x1 I (new_state _ _ _ _ _)) as (q & r & E & N).
  assert (S : solver_state Osqp dbg q).
  { exists jk, hb, st. eapply (reach_step _ _ _ _ (SSolve Osqp demo jk a1 x1)); [constructor|exact I|]. cbn [sstep]. rewrite E. reflexivity. }
  destruct (demo_solved (K:=K) Osqp dbg jk q a2 x2 I S) as (q' & r' & E' & _).
  exists q, r, q', r'. split; [exact E|]. split; [exact E'|].
  eapply copy_fails; [apply demo_pwf|reflexivity|discriminate|apply Nat.lt_0_2|exact N].
Qed.
Print Assumptions C78_refuted.
(** Five iterations and a rho were asked for, then the solver was copied and the copy used. *)
Example C78_case : forall (K : num) (lib : @library K) jk hb st ans x (r : K),
  exists s s', run (cstep Osqp false lib) (cnew Osqp lib jk hb st) [CIter Osqp 5; CPar Osqp Rho r] = Some s /\ t_iter (snd s) = 5 /\
    after (cstep Osqp false lib (osqp_copy lib s hb st) (CCall Osqp (SSolve Osqp demo jk ans x))) = Some s' /\
    sizes (fst s') <> sizes (fst s) /\ u_iter (snd s') = 1000 /\ u_par (snd s') Rho = r.
Proof.
  intros K lib jk hb st ans x r. eexists. destruct (demo_solved (K:=K) Osqp false jk (solver_new Osqp jk hb st) ans x I (new_state _ _ _ _ _)) as (q & e & E & N).
  assert (Z : sizes q <> (0, 0, 0)) by (unfold sizes; rewrite N; discriminate).
  exists (q, refreshed Osqp false lib (solver_new Osqp jk hb st) q (copy_settings lib (set_par Osqp (fst (set_iter Osqp lib (set_new Osqp lib) 5)) Rho r))).
  split; [reflexivity|]. split; [reflexivity|].
  assert (C : after (cstep Osqp false lib (osqp_copy lib (solver_new Osqp jk hb st, set_par Osqp (fst (set_iter Osqp lib (set_new Osqp lib) 5)) Rho r) hb st) (CCall Osqp (SSolve Osqp demo jk ans x)))
    = Some (q, refreshed Osqp false lib (solver_new Osqp jk hb st) q (copy_settings lib (set_par Osqp (fst (set_iter Osqp lib (set_new Osqp lib) 5)) Rho r)))).
  { change (osqp_copy lib (solver_new Osqp jk hb st, set_par Osqp (fst (set_iter Osqp lib (set_new Osqp lib) 5)) Rho r) hb st)
      with (solver_new Osqp jk hb st, copy_settings lib (set_par Osqp (fst (set_iter Osqp lib (set_new Osqp lib) 5)) Rho r)).
    cbn [cstep sstep]. rewrite E. reflexivity. }
  split; [exact C|]. split; [exact Z|].
  destruct (C78_settings K false lib _ hb st _ _ C) as (A & B & _); [exact Z|]. split; [exact B|]. exact (A Rho _ eq_refl).
Qed.
