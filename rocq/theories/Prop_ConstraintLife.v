(** Property C113: a constraint object over every sequence of its calls.  Only
    statements; the proofs are in ConstraintLifeP.v. *)
From Coq Require Import List Arith Bool String Reals Lia Lra.
From Verif Require Import Scalar Outcome Linalg Constraint FormPhysSpec RSum SolverSpec SolverSem SolverCost Check ConstraintLife ConstraintLifeP.
Import ListNotations.
Open Scope string_scope.
Open Scope list_scope.
Open Scope nat_scope.

(** Every part of a constraint is what the last successful call that sets it asked for:
    with NDEBUG or without, whatever was called before, and whatever calls that failed or
    set other parts came after. *)
Theorem C113_last_word : forall (K : num) nd (k : constr K) l1 o l2 k' p x,
  did nd k (l1 ++ (o, Some true) :: l2) k' -> has (c_kind k) p -> gives (c_kind k) o p x ->
  (forall o', In (o', Some true) l2 -> ~ touches o' p) -> part_of k' p = x.
Proof. exact @last_word. Qed.
Print Assumptions C113_last_word.
Theorem C113_first_word : forall (K : num) nd (k : constr K) l k' p,
  did nd k l k' -> (forall o, In (o, Some true) l -> ~ touches o p) -> part_of k' p = part_of k p.
Proof. exact @did_keeps. Qed.
Print Assumptions C113_first_word.
(** Name and class (isEquality, isInequality, isBound) never change. *)
Theorem C113_same : forall (K : num) nd (k : constr K) l k', did nd k l k' -> c_name k' = c_name k /\ c_kind k' = c_kind k.
Proof. exact @did_same. Qed.
Print Assumptions C113_same.
(** A call that throws or returns false changes nothing. *)
Theorem C113_refused : forall (K : num) nd (k : constr K) o k',
  cstep nd k o = Exc k' \/ cstep nd k o = Ret k' false -> k' = k.
Proof. exact @step_refused. Qed.
Print Assumptions C113_refused.
(** Exactly these calls throw: a matrix of another size, a bound resized to r <> c. *)
Theorem C113_throws : forall (K : num) nd (k : constr K) o,
  (exists k', cstep nd k o = Exc k') <->
  match o with
  | Resize r c => c_kind k = CBound /\ r <> c
  | SetMatrix m => mcols m <> mcols (c_mat k) \/ mrows m <> mrows (c_mat k)
  | _ => False
  end.
Proof. exact @step_throws. Qed.
Print Assumptions C113_throws.
(** Exactly the setters of the other classes fail their assertion, or return false with
    NDEBUG. *)
Theorem C113_wrong_class : forall (K : num) nd (k : constr K) o,
  (cstep nd k o = (if nd then Ret k false else Undef)) <->
  match o with
  | SetVector _ => c_kind k <> CEq
  | SetLowerBound _ | SetUpperBound _ => c_kind k = CEq
  | _ => False
  end.
Proof. exact @step_wrong. Qed.
Print Assumptions C113_wrong_class.
(** Every other call returns true. *)
Theorem C113_otherwise : forall (K : num) nd (k : constr K) o,
  (exists k', cstep nd k o = Exc k') \/ cstep nd k o = (if nd then Ret k false else Undef) \/
  (exists k', cstep nd k o = Ret k' true).
Proof. exact @step_else. Qed.
Print Assumptions C113_otherwise.

(** The constructors. *)
Theorem C113_constructors : forall (K : num) name (A : mat K) b lb ub,
  (make_eq name A b = None <-> mrows A <> vlen b) /\
  (make_ineq name A lb ub = None <-> mrows A <> vlen lb \/ mrows A <> vlen ub) /\
  (make_bound name lb ub = None <-> vlen lb <> vlen ub) /\
  (forall k, make_eq name A b = Some k -> c_name k = name /\ c_kind k = CEq /\ c_mat k = A /\ c_vec k = b) /\
  (forall k, make_ineq name A lb ub = Some k ->
     c_name k = name /\ c_kind k = CIneq /\ c_mat k = A /\ c_lb k = lb /\ c_ub k = ub) /\
  (forall k, make_bound name lb ub = Some k -> c_name k = name /\ c_kind k = CBound /\ c_lb k = lb /\ c_ub k = ub /\
     forall i j, mget (c_mat k) i j = if i =? j then n1 else n0).
Proof. exact @made. Qed.
Print Assumptions C113_constructors.
Theorem C113_zero : forall (K : num) name r c,
  let zero (x : value K) := match x with M m => forall i j, mget m i j = n0 | V v => forall i, vget v i = n0 end in
  (forall p, zero (part_of (new_eq name r c) p)) /\ (forall p, zero (part_of (new_ineq name r c) p)) /\
  (forall p, p <> PMat -> zero (part_of (new_bound name r) p)) /\
  (forall i j, mget (c_mat (@new_bound K name r)) i j = if i =? j then n1 else n0) /\
  c_kind (@new_eq K name r c) = CEq /\ c_kind (@new_ineq K name r c) = CIneq /\ c_kind (@new_bound K name r) = CBound /\
  c_name (@new_eq K name r c) = name /\ c_name (@new_ineq K name r c) = name /\ c_name (@new_bound K name r) = name.
Proof. exact @zeroed. Qed.
Print Assumptions C113_zero.

(** A caller who gives vectors of the right length always has a constraint whose rows()
    and cols() are those of the last resize (or of the constructor), which the solvers
    accept ([cwf]), and about which checkConstraint decides exactly the constraint with
    the parts above. *)
Theorem C113_sized : forall (K : num) nd name (k : constr K) r c l k',
  built name k r c -> did nd k l k' -> fitting r c l ->
  crows k' = Some (fst (size_after r c l)) /\ ccols k' = Some (snd (size_after r c l)) /\
  cwf (snd (size_after r c l)) k'.
Proof. exact @life_sized. Qed.
Print Assumptions C113_sized.
Theorem C113_check : forall nd name (k k' : constr Rnum) r c l (x : vec Rnum) (tol : R),
  built name k r c -> did nd k l k' -> fitting r c l -> vlen x = snd (size_after r c l) ->
  exists ok, check sqrt k' x tol = Some ok /\
    (ok = true <-> meets (c_kind k) (fst (size_after r c l)) (snd (size_after r c l))
                     (mget (c_mat k')) (vget (c_vec k')) (vget (c_lb k')) (vget (c_ub k')) (vget x) tol).
Proof. exact life_check. Qed.
Print Assumptions C113_check.

(** Straight after a resize an equality or inequality accepts every vector; a bound only
    those within the tolerance of zero. *)
Theorem C113_resized : forall nd (k k' : constr Rnum) r c b (x : vec Rnum) (tol : R),
  cstep nd k (Resize r c) = Ret k' b -> vlen x = c -> (0 < tol)%R ->
  (c_kind k <> CBound -> check sqrt k' x tol = Some true) /\
  (c_kind k = CBound -> exists ok, check sqrt k' x tol = Some ok /\
     (ok = true <-> forall i, i < c -> (Rabs (vget x i) <= tol)%R)).
Proof. exact resized. Qed.
Print Assumptions C113_resized.

(** Not guaranteed: setMatrix on a bound returns true and matrix() shows the new matrix,
    but neither checkConstraint nor the set of solutions changes. *)
Theorem C113_bound_matrix_refuted : forall nd (k : constr Rnum) m, c_kind k = CBound ->
  mrows m = mrows (c_mat k) -> mcols m = mcols (c_mat k) ->
  exists k', cstep nd k (SetMatrix m) = Ret k' true /\ c_mat k' = m /\
    (forall x tol, check sqrt k' x tol = check sqrt k x tol) /\ (forall x, sat k' x <-> sat k x).
Proof. exact bound_matrix. Qed.
Print Assumptions C113_bound_matrix_refuted.
(** Not guaranteed: setLowerBound checks no size; with another length it returns true, and
    rows() fails its assertion from then on. *)
Theorem C113_length_refuted : forall (K : num) nd (k : constr K) r c v,
  c_kind k <> CEq -> crows k = Some r -> ccols k = Some c -> vlen v <> r ->
  exists k', cstep nd k (SetLowerBound v) = Ret k' true /\ crows k' = None.
Proof. exact @wrong_size. Qed.
Print Assumptions C113_length_refuted.

(** A life of an inequality: x0 + 2 x1 between 1 and 3, after a resize and a refused
    matrix. *)
Definition row12 : mat Rnum := @mkMat Rnum 1 2 (fun _ j => match j with O => 1 | _ => 2 end)%R.
Definition cst (a : R) : vec Rnum := @mkVec Rnum 1 (fun _ => a).
Definition life_ineq : list (ccall Rnum * option bool) :=
  [(SetLowerBound (@mkVec Rnum 3 (fun _ => 5%R)), Some true); (Resize 1 2, Some true); (SetMatrix row12, Some true);
   (SetMatrix (@mkMat Rnum 2 2 (fun _ _ => 1%R)), None); (SetLowerBound (cst 1), Some true);
   (SetVector (cst 7), Some false); (SetUpperBound (cst 3), Some true)].
Example C113_case : exists k', did true (new_ineq "i" 3 4) life_ineq k' /\ fitting 3 4 life_ineq /\
  size_after 3 4 life_ineq = (1, 2) /\ built "i" (@new_ineq Rnum "i" 3 4) 3 4 /\
  c_mat k' = row12 /\ c_lb k' = cst 1 /\ c_ub k' = cst 3 /\
  check sqrt k' (@mkVec Rnum 2 (fun _ => (2 / 3)%R)) (1 / 10)%R = Some true /\
  check sqrt k' (@mkVec Rnum 2 (fun _ => 2%R)) (1 / 10)%R = Some false.
Proof.
  assert (D : exists k', did true (@new_ineq Rnum "i" 3 4) life_ineq k').
  { unfold life_ineq. eexists. do 3 (eapply did_ret; [reflexivity|]). eapply did_exc; [reflexivity|].
    do 3 (eapply did_ret; [reflexivity|]). apply did_nil. }
  destruct D as [k' D]. exists k'.
  assert (F : fitting 3 4 life_ineq) by (cbn; auto 8).
  assert (B : built "i" (@new_ineq Rnum "i" 3 4) 3 4) by constructor.
  assert (Em : part_of k' PMat = M row12).
  { apply (C113_last_word Rnum true _ (firstn 2 life_ineq) (SetMatrix row12) (skipn 3 life_ineq) k' PMat _ D); cbn; auto.
    intros o' H T. destruct o'; cbn in T; try contradiction; cbn in H; intuition discriminate. }
  assert (El : part_of k' PLow = V (cst 1)).
  { apply (C113_last_word Rnum true _ (firstn 4 life_ineq) (SetLowerBound (cst 1)) (skipn 5 life_ineq) k' PLow _ D); cbn; auto.
    intros o' H T. destruct o'; cbn in T; try contradiction; cbn in H; intuition discriminate. }
  assert (Eu : part_of k' PUp = V (cst 3)).
  { apply (C113_last_word Rnum true _ (firstn 6 life_ineq) (SetUpperBound (cst 3)) (skipn 7 life_ineq) k' PUp _ D); cbn; auto. }
  injection Em as Em. injection El as El. injection Eu as Eu.
  do 7 (split; [first [assumption|reflexivity]|]).
  split.
  - destruct (C113_check true "i" _ k' 3 4 life_ineq (@mkVec Rnum 2 (fun _ => (2 / 3)%R)) (1 / 10)%R B D F eq_refl) as (ok & E & H).
    rewrite E. f_equal. apply H. intros i Hi. rewrite Em, El, Eu. cbn. lra.
  - destruct (C113_check true "i" _ k' 3 4 life_ineq (@mkVec Rnum 2 (fun _ => 2%R)) (1 / 10)%R B D F eq_refl) as (ok & E & H).
    rewrite E. destruct ok; [|reflexivity]. exfalso. assert (Z := proj1 H eq_refl 0 Nat.lt_0_1).
    revert Z. rewrite Em, El, Eu. cbn. lra.
Qed.
(** A bound 0 <= x <= 1 given the matrix 2: x = 3/4 is accepted although 2 x > 1. *)
Example C113_bound_case : exists k k', make_bound "b" (cst 0) (cst 1) = Some k /\
  cstep false k (SetMatrix (@mkMat Rnum 1 1 (fun _ _ => 2%R))) = Ret k' true /\
  check sqrt k' (cst (3 / 4)) 0%R = Some true /\ ~ (2 * (3 / 4) <= 1)%R.
Proof.
  eexists. eexists. split; [reflexivity|]. split; [reflexivity|]. split; [|lra].
  apply (check_true 1); [cbn; auto|reflexivity|]. intros i Hi. cbn. lra.
Qed.
(** A lower bound of length 2 on a bound of length 1. *)
Example C113_length_case : exists k, make_bound "b" (cst 0) (cst 1) = Some k /\ c_kind k <> CEq /\ crows k = Some 1 /\
  ccols k = Some 1 /\ vlen (@mkVec Rnum 2 (fun _ => 0%R)) <> 1.
Proof. eexists. split; [reflexivity|]. cbn. split; [discriminate|]. auto. Qed.
