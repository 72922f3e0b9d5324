(** The members of HQPOutput that Solvers.v leaves out (multipliers, active set, number of
    iterations), the value of getObjectiveValue, and the names of the statuses.

    include/tsid/solvers/solver-HQP-output.hpp:29-53, src/solvers/solver-HQP-base.cpp:12-14 and
    the second halves of the solve functions; abbreviations eiq, fast, rt, prox, osqp, qpmad as
    in Solvers.v. *)
From Coq Require Import String List Arith Bool ZArith QArith Lia.
From Verif Require Import Scalar Outcome Linalg Constraint Solvers SolverSpec SolverSizes SolverHist SolverMain SolverRefute.
Import ListNotations.
Open Scope string_scope.
Open Scope list_scope.
Open Scope nat_scope.

Section Output.
Context {K : num}.
(** std::numeric_limits<double>::infinity() *)
Variable inf : K.

(** What the library behind a solver holds once it has run: its return code, the vector x,
    getLagrangeMultipliers (prox: results.y, osqp: getDualSolution), getActiveSet and
    getActiveSetSize, the number of iterations, the objective value. *)
Record answer (b : backend) := mkAns {
  a_code : code b; a_x : vec K; a_lam : vec K; a_act : list Z; a_q : nat; a_it : Z; a_obj : K }.
Arguments a_code {_}. Arguments a_x {_}. Arguments a_lam {_}. Arguments a_act {_}. Arguments a_q {_}.
Arguments a_it {_}. Arguments a_obj {_}.
(** eiq:228 compares the objective value with infinity; the other libraries return a code. *)
Definition acode (b : backend) : answer b -> code b :=
  match b return answer b -> code b with
  | Eiq => fun a => neqb (a_obj a) inf
  | Fast => fun a => a_code a
  | Rt _ _ _ => fun a => a_code a
  | Prox => fun a => a_code a
  | Osqp => fun a => a_code a
  | Qpmad => fun a => a_code a
  end.

(** A solver object: the members modelled in Solvers.v, then lambda, activeSet and iterations
    of m_output, and the objective value held by the object or by its library. *)
Record ostate := mkO { o_s : sst K; o_lam : vec K; o_act : list Z; o_it : Z; o_obj : K }.

(** Contents of integers that nothing has written. *)
Definition ijunk := nat -> Z.
Definition ints (ji : ijunk) (n : nat) : list Z := map ji (seq 0 n).

(** HQPOutput() leaves iterations uninitialised (output.hpp:42) and the vectors empty;
    rt:30 gives them their sizes. *)
Definition out_new (b : backend) (jk : junk K) (ji : ijunk) (hb : bool) (st : status) (it0 : Z) (ob0 : K) : ostate :=
  match b with
  | Rt nv ne ni => mkO (solver_new b jk hb st) (jvec jk 10 (ne + 2 * ni)) (ints ji (2 * ni)) it0 ob0
  | _ => mkO (solver_new b jk hb st) (vzero 0) [] it0 ob0
  end.

(** m_output.resize(n, neq, 2 * nin) of output.hpp:48-52 for lambda and activeSet. *)
Definition out_resize (jk : junk K) (ji : ijunk) (neq nin : nat) (o : ostate) (s1 : sst K) : ostate :=
  mkO s1 (if vlen (o_lam o) =? neq + nin then o_lam o else jvec jk 10 (neq + nin))
      (if List.length (o_act o) =? nin then o_act o else ints ji nin) (o_it o) (o_obj o).
(** What a call of the class's resize did to the output: only fast:61-64 resizes lambda and
    activeSet, and only when one of m_n, m_neq, m_nin changes; [s1] is the solver after it. *)
Definition resized (b : backend) (jk : junk K) (ji : ijunk) (o : ostate) (s1 : sst K) : ostate :=
  match b with
  | Fast =>
      if (q_n s1 =? q_n (o_s o)) && (q_neq s1 =? q_neq (o_s o)) && (q_nin s1 =? q_nin (o_s o))
      then mkO s1 (o_lam o) (o_act o) (o_it o) (o_obj o)
      else out_resize jk ji (q_neq s1) (2 * q_nin s1) o s1
  | _ => mkO s1 (o_lam o) (o_act o) (o_it o) (o_obj o)
  end.

(** v.segment(i, q - i) of an integer vector with unsigned sizes. *)
Definition segment (v : list Z) (i q : nat) : option (list Z) :=
  if (i <=? q) && (q <=? List.length v) then Some (firstn (q - i) (skipn i v)) else None.

(** Fields written once the library has returned: fast:173-180, rt:160-167, prox:184-189,
    osqp:213-216; eiq:228-260 and qpmad:155-187 write none of them. *)
Definition written (b : backend) (o : ostate) : answer b -> option ostate :=
  match b return answer b -> option ostate with
  | Eiq => fun a => Some (mkO (o_s o) (o_lam o) (o_act o) (o_it o) (a_obj a))
  | Fast => fun a =>
      match a_code a with
      | F_optimal => do w <- segment (a_act a) (q_neq (o_s o)) (a_q a);
                     Some (mkO (o_s o) (a_lam a) w (a_it a) (a_obj a))
      | _ => Some (mkO (o_s o) (o_lam o) (o_act o) (o_it o) (a_obj a))
      end
  | Rt _ _ _ => fun a =>
      match a_code a with
      | F_optimal => do w <- segment (a_act a) (q_neq (o_s o)) (a_q a);
                     Some (mkO (o_s o) (a_lam a) w (a_it a) (a_obj a))
      | _ => Some (mkO (o_s o) (o_lam o) (o_act o) (o_it o) (a_obj a))
      end
  | Prox => fun a =>
      match a_code a with
      | P_solved => Some (mkO (o_s o) (a_lam a) (map (fun _ => 0%Z) (o_act o)) (a_it a) (a_obj a))
      | _ => Some (mkO (o_s o) (o_lam o) (o_act o) (o_it o) (a_obj a))
      end
  | Osqp => fun a =>
      match a_code a with
      | O_solved => Some (mkO (o_s o) (a_lam a) (o_act o) (o_it o) (a_obj a))
      | _ => Some (mkO (o_s o) (o_lam o) (o_act o) (o_it o) (a_obj a))
      end
  | Qpmad => fun a => Some (mkO (o_s o) (o_lam o) (o_act o) (o_it o) (a_obj a))
  end.

(** solve with all its output. *)
Definition osolve (b : backend) dbg jk ji (o : ostate) (P : hqpdata K) (a : answer b) : outcome ostate (status * vec K) :=
  match solve b dbg jk (o_s o) P (acode b a) (a_x a) with
  | Ret s1 r => match written b (resized b jk ji o s1) a with Some o' => Ret o' r | None => Undef end
  | Exc s1 => Exc (resized b jk ji o s1)
  | Undef => Undef
  end.

(** getObjectiveValue: eiq:265, fast:220-222, rt:207-210, prox:231-233, osqp:263;
    qpmad:194-197 answers infinity. *)
Definition objective_value (b : backend) (o : ostate) : K := match b with Qpmad => inf | _ => o_obj o end.

(** Calls on one object.  fast:62, prox and osqp reset their library in resize, after which
    its objective value is unspecified until the next solve ([ob]). *)
Inductive oop (b : backend) :=
| OResize (n neq nin : nat) (jk : junk K) (ji : ijunk) (ob : K)
| ORetrieve (P : hqpdata K) (flag : bool) (jk : junk K) (ji : ijunk) (ob : K)
| OSolve (P : hqpdata K) (jk : junk K) (ji : ijunk) (a : answer b).
Definition forget (b : backend) (ob : K) (o : ostate) : ostate :=
  match b with Fast | Prox | Osqp => mkO (o_s o) (o_lam o) (o_act o) (o_it o) ob | _ => o end.
Definition ostep (b : backend) dbg (o : ostate) (c : oop b) : outcome ostate (status * vec K) :=
  match c with
  | OResize _ n neq nin jk ji ob =>
      match resize b dbg jk (o_s o) n neq nin with
      | Some s1 => Ret (forget b ob (resized b jk ji o s1)) (q_status s1, q_x s1)
      | None => Undef
      end
  | ORetrieve _ P flag jk ji ob =>
      match retrieve b dbg jk (o_s o) P flag with
      | Ret s1 _ => Ret (forget b ob (resized b jk ji o s1)) (q_status s1, q_x s1)
      | Exc s1 => Exc (forget b ob (resized b jk ji o s1))
      | Undef => Undef
      end
  | OSolve _ P jk ji a => osolve b dbg jk ji o P a
  end.

(** enum HQPStatus (include/tsid/solvers/fwd.hpp:61-68) and
    SolverHQPBase::HQP_status_string[output.status] (solver-HQP-base.cpp:12-14); [None] is an
    access outside the array of five strings. *)
Definition status_number (t : status) : Z :=
  match t with
  | St_unknown => -1 | St_optimal => 0 | St_infeasible => 1 | St_unbounded => 2 | St_max_iter => 3 | St_error => 4
  end%Z.
Definition status_strings : list string :=
  ["HQP_STATUS_OPTIMAL"; "HQP_STATUS_INFEASIBLE"; "HQP_STATUS_UNBOUNDED"; "HQP_STATUS_MAX_ITER_REACHED"; "HQP_STATUS_ERROR"].
Definition status_name (t : status) : option string :=
  if (0 <=? status_number t)%Z then nth_error status_strings (Z.to_nat (status_number t)) else None.

(** Facts. *)
Implicit Types o : ostate.
Lemma resized_s b jk ji o s1 : o_s (resized b jk ji o s1) = s1 /\ o_it (resized b jk ji o s1) = o_it o /\
  o_obj (resized b jk ji o s1) = o_obj o.
Proof. destruct b; cbn [resized]; try (repeat split; reflexivity). destruct (_ && _); repeat split; reflexivity. Qed.
Lemma written_s b o a o' : written b o a = Some o' -> o_s o' = o_s o /\ o_obj o' = a_obj a.
Proof.
  destruct b; cbn [written]; try (intros H; injection H as <-; split; reflexivity).
  all: destruct (a_code a); try (intros H; injection H as <-; split; reflexivity).
  all: destruct (segment _ _ _); [cbn [obind]|discriminate]; intros H; injection H as <-; split; reflexivity.
Qed.
Lemma osolve_base b dbg jk ji o P a o' r : osolve b dbg jk ji o P a = Ret o' r ->
  solve b dbg jk (o_s o) P (acode b a) (a_x a) = Ret (o_s o') r /\ o_obj o' = a_obj a /\
  written b (resized b jk ji o (o_s o')) a = Some o'.
Proof.
  unfold osolve. destruct (solve b dbg jk (o_s o) P (acode b a) (a_x a)) as [s1 r1|s1|]; try discriminate.
  destruct (written b (resized b jk ji o s1) a) as [o1|] eqn:E; [|discriminate].
  intros H; injection H as <- <-. destruct (written_s _ _ _ _ E) as [E1 E2].
  rewrite (proj1 (resized_s b jk ji o s1)) in E1. rewrite E1. auto.
Qed.
Definition out_state b dbg o : Prop :=
  exists jk ji hb st it0 ob0, reach (ostep b dbg) (fun _ _ => True) (out_new b jk ji hb st it0 ob0) o.
Lemma forget_s b ob o : o_s (forget b ob o) = o_s o /\ o_lam (forget b ob o) = o_lam o /\
  o_act (forget b ob o) = o_act o /\ o_it (forget b ob o) = o_it o.
Proof. destruct b; repeat split; reflexivity. Qed.
Lemma ostep_base b dbg o c o' : after (ostep b dbg o c) = Some o' ->
  exists c', after (sstep b dbg (o_s o) c') = Some (o_s o').
Proof.
  destruct c as [n neq nin jk ji ob|P flag jk ji ob|P jk ji a]; cbn [ostep].
  - destruct (resize b dbg jk (o_s o) n neq nin) as [s1|] eqn:E; [|discriminate]. intros H; injection H as <-.
    exists (SResize b n neq nin jk). cbn [sstep]. rewrite E. cbn [after].
    rewrite (proj1 (forget_s _ _ _)), (proj1 (resized_s _ _ _ _ _)). reflexivity.
  - intros H. exists (SRetrieve b P flag jk). cbn [sstep].
    destruct (retrieve b dbg jk (o_s o) P flag) as [s1 u|s1|]; try discriminate; injection H as <-; cbn [after];
      rewrite (proj1 (forget_s _ _ _)), (proj1 (resized_s _ _ _ _ _)); reflexivity.
  - intros H. exists (SSolve b P jk (acode b a) (a_x a)). cbn [sstep]. unfold osolve in H.
    destruct (solve b dbg jk (o_s o) P (acode b a) (a_x a)) as [s1 r1|s1|]; try discriminate.
    + destruct (written b (resized b jk ji o s1) a) as [o1|] eqn:E; [|discriminate]. injection H as <-.
      destruct (written_s _ _ _ _ E) as [E1 _]. rewrite E1, (proj1 (resized_s _ _ _ _ _)). reflexivity.
    + injection H as <-. cbn [after]. rewrite (proj1 (resized_s _ _ _ _ _)). reflexivity.
Qed.
(** The part modelled in Solvers.v goes through a history of its own calls. *)
Theorem out_solver b dbg o : out_state b dbg o -> solver_state b dbg (o_s o).
Proof.
  intros (jk & ji & hb & st & it0 & ob0 & H). exists jk, hb, st. revert H.
  apply (reach_inv (ostep b dbg) (fun _ _ => True)
           (fun o => reach (sstep b dbg) (fun _ _ => True) (solver_new b jk hb st) (o_s o))).
  - destruct b; constructor.
  - intros o1 c o2 I _ A. destruct (ostep_base _ _ _ _ _ A) as [c' A']. econstructor; eauto.
Qed.

(** Optimal solve. *)
Lemma segment_spec v i q w : segment v i q = Some w ->
  i <= q <= List.length v /\ List.length w = q - i /\ forall k, k < q - i -> nth k w 0%Z = nth (i + k) v 0%Z.
Proof.
  unfold segment. destruct ((i <=? q) && (q <=? List.length v)) eqn:E; [|discriminate].
  apply andb_prop in E as [E1 E2]. apply Nat.leb_le in E1, E2. intros H; injection H as <-.
  split; [lia|]. split; [rewrite firstn_length, skipn_length; lia|]. intros k Hk.
  assert (F : forall (l : list Z) n j, j < n -> nth j (firstn n l) 0%Z = nth j l 0%Z).
  { induction l as [|z l IH]; intros [|n] [|j] H; cbn; try reflexivity; try lia. apply IH; lia. }
  assert (G : forall (l : list Z) n j, nth j (skipn n l) 0%Z = nth (n + j) l 0%Z).
  { induction l as [|z l IH]; intros [|n] j; cbn; try reflexivity; [destruct j; reflexivity|apply IH]. }
  rewrite F, G by exact Hk. reflexivity.
Qed.
Theorem optimal_fields b dbg jk ji o P a o' r : osolve b dbg jk ji o P a = Ret o' r -> optimum b (acode b a) ->
  match b with
  | Fast | Rt _ _ _ =>
      o_lam o' = a_lam a /\ o_it o' = a_it a /\
      q_neq (o_s o') <= a_q a <= List.length (a_act a) /\ List.length (o_act o') = a_q a - q_neq (o_s o') /\
      forall k, k < a_q a - q_neq (o_s o') -> nth k (o_act o') 0%Z = nth (q_neq (o_s o') + k) (a_act a) 0%Z
  | Prox => o_lam o' = a_lam a /\ o_it o' = a_it a
  | Osqp => o_lam o' = a_lam a
  | Eiq | Qpmad => True
  end.
Proof.
  intros H Ho. apply osolve_base in H as (_ & _ & W). destruct b; cbn [written acode optimum] in *; auto.
  1,2: rewrite Ho in W; rewrite (proj1 (resized_s _ _ _ _ _)) in W;
    destruct (segment (a_act a) (q_neq (o_s o')) (a_q a)) as [w|] eqn:E; [cbn [obind] in W|discriminate];
    apply segment_spec in E; assert (E1 : o_lam o' = a_lam a /\ o_it o' = a_it a /\ o_act o' = w)
      by (injection W as <-; repeat split; reflexivity);
    destruct E1 as (-> & -> & ->); intuition.
  - rewrite Ho in W. injection W as <-. split; reflexivity.
  - rewrite Ho in W. injection W as <-. reflexivity.
Qed.
(** solve with a library that answers optimal and an active set it cannot hold is undefined. *)
Theorem segment_undefined b dbg jk ji o P a s1 r : solve b dbg jk (o_s o) P (acode b a) (a_x a) = Ret s1 r ->
  match b with Fast | Rt _ _ _ => True | _ => False end -> optimum b (acode b a) ->
  (a_q a < q_neq s1 \/ List.length (a_act a) < a_q a) -> osolve b dbg jk ji o P a = Undef.
Proof.
  intros E Hb Ho Hq. unfold osolve. rewrite E.
  assert (S : segment (a_act a) (q_neq s1) (a_q a) = None).
  { unfold segment. destruct (q_neq s1 <=? a_q a) eqn:E1; [|reflexivity].
    destruct (a_q a <=? List.length (a_act a)) eqn:E2; [|reflexivity]. apply Nat.leb_le in E1, E2. lia. }
  destruct b; try (destruct Hb); cbn [written acode optimum] in *; rewrite Ho, (proj1 (resized_s _ _ _ _ _)), S; reflexivity.
Qed.
(** The other answers leave the fields as the call before left them. *)
Theorem stale_fields b dbg jk ji o P a o' r : osolve b dbg jk ji o P a = Ret o' r -> ~ optimum b (acode b a) ->
  (b = Fast -> q_n (o_s o') = q_n (o_s o) /\ q_neq (o_s o') = q_neq (o_s o) /\ q_nin (o_s o') = q_nin (o_s o)) ->
  o_lam o' = o_lam o /\ o_act o' = o_act o /\ o_it o' = o_it o.
Proof.
  intros H Ho Hs. apply osolve_base in H as (_ & _ & W).
  assert (Y : o_lam (resized b jk ji o (o_s o')) = o_lam o /\ o_act (resized b jk ji o (o_s o')) = o_act o /\
              o_it (resized b jk ji o (o_s o')) = o_it o).
  { destruct b; cbn [resized]; try (repeat split; reflexivity).
    destruct (Hs eq_refl) as (-> & -> & ->). rewrite !Nat.eqb_refl. cbn [andb]. repeat split; reflexivity. }
  destruct Y as (<- & <- & <-). generalize dependent (resized b jk ji o (o_s o')). intros u W.
  destruct b; cbn [written acode optimum] in *.
  1,6: injection W as <-; repeat split; reflexivity.
  all: destruct (a_code a); try (exfalso; apply Ho; reflexivity); injection W as <-; repeat split; reflexivity.
Qed.
(** After a change of sizes, fast's fields have the new sizes and unspecified contents where
    their own size changed. *)
Theorem resized_fields dbg jk ji o P a o' r : osolve Fast dbg jk ji o P a = Ret o' r -> ~ optimum Fast (acode Fast a) ->
  ~ (q_n (o_s o') = q_n (o_s o) /\ q_neq (o_s o') = q_neq (o_s o) /\ q_nin (o_s o') = q_nin (o_s o)) ->
  vlen (o_lam o') = q_neq (o_s o') + 2 * q_nin (o_s o') /\ List.length (o_act o') = 2 * q_nin (o_s o') /\
  o_it o' = o_it o /\
  (vlen (o_lam o) <> vlen (o_lam o') -> forall k, k < vlen (o_lam o') -> vget (o_lam o') k = jk 10 k 0) /\
  (List.length (o_act o) <> List.length (o_act o') -> forall k, k < List.length (o_act o') -> nth k (o_act o') 0%Z = ji k).
Proof.
  intros H Ho Hs. apply osolve_base in H as (_ & _ & W).
  assert (Y : resized Fast jk ji o (o_s o') = out_resize jk ji (q_neq (o_s o')) (2 * q_nin (o_s o')) o (o_s o')).
  { cbn [resized]. destruct (_ && _) eqn:E; [|reflexivity]. apply andb_prop in E as [E E3]. apply andb_prop in E as [E1 E2].
    apply Nat.eqb_eq in E1, E2, E3. destruct Hs; auto. }
  rewrite Y in W. clear Y. cbn [written acode optimum] in *.
  remember (q_neq (o_s o')) as ne eqn:Ene. remember (2 * q_nin (o_s o')) as ni eqn:Eni.
  assert (L : o_lam o' = (if vlen (o_lam o) =? ne + ni then o_lam o else jvec jk 10 (ne + ni)) /\
              o_act o' = (if List.length (o_act o) =? ni then o_act o else ints ji ni) /\ o_it o' = o_it o).
  { destruct (a_code a); try (exfalso; apply Ho; reflexivity); injection W as <-; repeat split; reflexivity. }
  clear W. destruct L as (-> & -> & ->).
  assert (I : List.length (ints ji ni) = ni) by (unfold ints; rewrite map_length, seq_length; reflexivity).
  destruct (vlen (o_lam o) =? ne + ni) eqn:E1; destruct (List.length (o_act o) =? ni) eqn:E2;
    rewrite ?Nat.eqb_eq, ?Nat.eqb_neq in *; rewrite ?I; repeat split; auto; try congruence; try reflexivity.
  all: intros _ k Hk; unfold ints; rewrite (nth_indep _ 0%Z (ji 0)) by (rewrite map_length, seq_length; exact Hk);
    rewrite map_nth, seq_nth by exact Hk; reflexivity.
Qed.

(** Fields no call ever writes. *)
Definition unwritten (b : backend) (it0 : Z) (o : ostate) : Prop :=
  match b with
  | Eiq | Qpmad => vlen (o_lam o) = 0 /\ o_act o = [] /\ o_it o = it0
  | Prox => o_act o = []
  | Osqp => o_act o = [] /\ o_it o = it0
  | _ => True
  end.
Theorem never_written b dbg jk ji hb st it0 ob0 o :
  reach (ostep b dbg) (fun _ _ => True) (out_new b jk ji hb st it0 ob0) o -> unwritten b it0 o.
Proof.
  apply (reach_inv (ostep b dbg) (fun _ _ => True) (unwritten b it0)); [destruct b; repeat split|]. intros o1 c o2 I _ A.
  assert (X : forall s1 j i, unwritten b it0 (resized b j i o1 s1)) by (intros s1 j i; destruct b; exact I).
  assert (Y : forall ob u, unwritten b it0 u -> unwritten b it0 (forget b ob u)) by (intros ob u; destruct b; exact (fun h => h)).
  destruct c as [n neq nin jk1 ji1 ob|P flag jk1 ji1 ob|P jk1 ji1 a]; cbn [ostep] in A.
  - destruct (resize b dbg jk1 (o_s o1) n neq nin); [|discriminate]. injection A as <-. apply Y, X.
  - destruct (retrieve b dbg jk1 (o_s o1) P flag); try discriminate; injection A as <-; apply Y, X.
  - unfold osolve in A. destruct (solve b dbg jk1 (o_s o1) P (acode b a) (a_x a)) as [s1 r1|s1|]; try discriminate.
    + specialize (X s1 jk1 ji1). destruct (written b (resized b jk1 ji1 o1 s1) a) as [u|] eqn:W; [|discriminate].
      injection A as <-. revert X W. generalize (resized b jk1 ji1 o1 s1). intros v X W.
      destruct b; cbn [written unwritten] in *; auto.
      * injection W as <-. exact X.
      * destruct (a_code a); injection W as <-; cbn [o_act]; rewrite X; reflexivity.
      * destruct (a_code a); injection W as <-; cbn [o_act o_it]; exact X.
      * injection W as <-. exact X.
    + injection A as <-. apply X.
Qed.

Theorem objective_last b dbg jk ji o P a o' r : osolve b dbg jk ji o P a = Ret o' r ->
  objective_value b o' = match b with Qpmad => inf | _ => a_obj a end.
Proof. intros H. apply osolve_base in H as (_ & E & _). unfold objective_value. rewrite E. reflexivity. Qed.
(** eiq's status is about that value. *)
Theorem eiq_status dbg jk ji o P a o' t x : osolve Eiq dbg jk ji o P a = Ret o' (t, x) ->
  (t = St_infeasible <-> neqb (objective_value Eiq o') inf = true) /\ (t = St_optimal <-> neqb (objective_value Eiq o') inf = false).
Proof.
  intros H. apply osolve_base in H as (E & Eo & _). cbn [objective_value]. rewrite Eo.
  apply solve_prepare in E as (s1 & _ & -> & R). injection R as -> _. cbn [w_out q_status new_status acode].
  destruct (neqb (a_obj a) inf); intuition discriminate.
Qed.

(** A second call without solution leaves the multipliers of the first one in the output. *)
Definition multipliers_current (b : backend) dbg : Prop :=
  forall o jk ji P a o' r, out_state b dbg o -> osolve b dbg jk ji o P a = Ret o' r ->
    (forall k, k < vlen (o_lam o') -> vget (o_lam o') k = vget (a_lam a) k).
End Output.
Arguments answer : clear implicits.
Arguments ostate : clear implicits.
Arguments a_code {K b}. Arguments a_x {K b}. Arguments a_lam {K b}. Arguments a_act {K b}. Arguments a_q {K b}.
Arguments a_it {K b}. Arguments a_obj {K b}.

Theorem status_names t : match status_name t with
  | Some x => t <> St_unknown /\ x = match t with
      | St_unknown => "HQP_STATUS_UNKNOWN" | St_optimal => "HQP_STATUS_OPTIMAL" | St_infeasible => "HQP_STATUS_INFEASIBLE"
      | St_unbounded => "HQP_STATUS_UNBOUNDED" | St_max_iter => "HQP_STATUS_MAX_ITER_REACHED" | St_error => "HQP_STATUS_ERROR" end
  | None => t = St_unknown
  end.
Proof. destruct t; vm_compute; auto; split; auto; discriminate. Qed.
