(** Outcomes of modelled C++ calls.

    [Ret s a]: normal return of [a] in object state [s].
    [Exc s]  : an exception left the call (PINOCCHIO_CHECK_INPUT_ARGUMENT throws
               std::invalid_argument); [s] is the object state at that moment.
    [Undef]  : a failed [assert]/[eigen_assert] or an out-of-bounds access.
               Debug builds abort here, NDEBUG builds have undefined behaviour. *)
From Coq Require Import List Arith Lia.
Import ListNotations.

Inductive outcome (S A : Type) : Type :=
| Ret (s : S) (a : A)
| Exc (s : S)
| Undef.
Arguments Ret {S A} _ _.
Arguments Exc {S A} _.
Arguments Undef {S A}.

(** Object state after a call, if the program is still running. *)
Definition after {S A} (o : outcome S A) : option S :=
  match o with Ret s _ => Some s | Exc s => Some s | Undef => None end.

Definition obind {A B} (x : option A) (f : A -> option B) : option B :=
  match x with Some a => f a | None => None end.
Notation "'do' x <- e ; f" := (obind e (fun x => f))
  (at level 60, x pattern, e at level 59, right associativity).

Definition guard (b : bool) : option unit := if b then Some tt else None.

(** Monadic left fold ([None] = undefined behaviour). *)
Fixpoint ofold {A B} (f : A -> B -> option A) (l : list B) (a : A) : option A :=
  match l with
  | [] => Some a
  | b :: l' => match f a b with Some a' => ofold f l' a' | None => None end
  end.

(** List update at an index (no-op when out of range; callers check). *)
Fixpoint lupd {A} (l : list A) (i : nat) (x : A) : list A :=
  match l, i with
  | [], _ => []
  | _ :: l', O => x :: l'
  | y :: l', S i' => y :: lupd l' i' x
  end.

(** Histories: run a step function over a list of calls; [None] once undefined
    behaviour has been reached. *)
Section Run.
  Context {S O A : Type} (step : S -> O -> outcome S A).
  Fixpoint run (s : S) (ops : list O) : option S :=
    match ops with
    | [] => Some s
    | o :: ops' => match after (step s o) with
                   | Some s' => run s' ops'
                   | None => None
                   end
    end.
  Lemma run_app s l1 l2 :
    run s (l1 ++ l2) = match run s l1 with Some s' => run s' l2 | None => None end.
  Proof.
    revert s; induction l1 as [|o l1 IH]; intros s; simpl; [reflexivity|].
    destruct (after (step s o)); [apply IH|reflexivity].
  Qed.
  (** Invariant rule for histories whose calls satisfy [P] in the state where
      they are issued. *)
  Inductive reach (P : S -> O -> Prop) (s0 : S) : S -> Prop :=
  | reach_init : reach P s0 s0
  | reach_step s o s' : reach P s0 s -> P s o -> after (step s o) = Some s' ->
                        reach P s0 s'.
  Lemma run_reach s0 ops s : run s0 ops = Some s -> reach (fun _ _ => True) s0 s.
  Proof.
    revert s; induction ops as [|o ops IH] using rev_ind; simpl; intros s H.
    - inversion H; subst; constructor.
    - rewrite run_app in H. destruct (run s0 ops) as [s1|] eqn:E; [|discriminate].
      simpl in H. destruct (after (step s1 o)) as [s2|] eqn:E2; [|discriminate].
      inversion H; subst. eapply reach_step; [apply IH; reflexivity|exact I|exact E2].
  Qed.
  Lemma reach_inv (P : S -> O -> Prop) (I : S -> Prop) s0 s :
    I s0 ->
    (forall s o s', I s -> P s o -> after (step s o) = Some s' -> I s') ->
    reach P s0 s -> I s.
  Proof. intros H0 Hs Hr; induction Hr; eauto. Qed.
  Lemma run_inv (I : S -> Prop) s0 ops s :
    I s0 -> (forall s o s', I s -> after (step s o) = Some s' -> I s') ->
    run s0 ops = Some s -> I s.
  Proof.
    intros H0 Hs Hr. apply run_reach in Hr.
    eapply reach_inv; [exact H0| |exact Hr]; eauto.
  Qed.
End Run.

Lemma lupd_length {A} (l : list A) i x : length (lupd l i x) = length l.
Proof. revert i; induction l as [|a l IH]; intros [|i]; simpl; auto. Qed.
Lemma nth_error_lupd_eq {A} (l : list A) i x :
  i < length l -> nth_error (lupd l i x) i = Some x.
Proof.
  revert i; induction l as [|a l IH]; intros [|i] H; simpl in *;
    try lia; auto. apply IH; lia.
Qed.
Lemma nth_error_lupd_neq {A} (l : list A) i j x :
  i <> j -> nth_error (lupd l i x) j = nth_error l j.
Proof.
  revert i j; induction l as [|a l IH]; intros [|i] [|j] H; simpl; auto;
    try (exfalso; apply H; reflexivity).
Qed.
