(** Specification of the life of a constraint object, and the proofs of C113. *)
From Coq Require Import List Arith Bool String Reals Lia Lra.
From Verif Require Import Scalar Outcome Linalg Constraint FormPhysSpec RSum SolverSpec SolverSem SolverCost Check ConstraintLife.
Import ListNotations.
Open Scope list_scope.
Open Scope nat_scope.

Ltac cases H := repeat match type of H with
  | context [match c_kind ?k with _ => _ end] => destruct (c_kind k) eqn:?; try discriminate
  | context [if ?x =? ?y then _ else _] => destruct (x =? y) eqn:?; try discriminate
  | context [if ?x then _ else _] => is_var x; destruct x; try discriminate
  end.

Section Spec.
Context {K : num}.
(** What a user sees of a sequence of calls: each call with the returned boolean, or
    [None] if it threw. *)
Inductive did (nd : bool) : constr K -> list (ccall K * option bool) -> constr K -> Prop :=
| did_nil k : did nd k [] k
| did_ret k o b k1 l k2 : cstep nd k o = Ret k1 b -> did nd k1 l k2 -> did nd k ((o, Some b) :: l) k2
| did_exc k o k1 l k2 : cstep nd k o = Exc k1 -> did nd k1 l k2 -> did nd k ((o, None) :: l) k2.

(** The parts of a constraint, and their values. *)
Inductive part := PMat | PVec | PLow | PUp.
Inductive value := M (m : mat K) | V (v : vec K).
Definition part_of (k : constr K) (p : part) : value :=
  match p with PMat => M (c_mat k) | PVec => V (c_vec k) | PLow => V (c_lb k) | PUp => V (c_ub k) end.
Definition has (kd : ckind) (p : part) : Prop :=
  match kd, p with _, PMat | CEq, PVec | CIneq, (PLow | PUp) | CBound, (PLow | PUp) => True | _, _ => False end.
Definition touches (o : ccall K) (p : part) : Prop :=
  match o, p with
  | Resize _ _, _ | SetMatrix _, PMat | SetVector _, PVec | SetLowerBound _, PLow | SetUpperBound _, PUp => True
  | _, _ => False
  end.
(** The value a call asks for. *)
Definition gives (kd : ckind) (o : ccall K) (p : part) (x : value) : Prop :=
  match o, p with
  | Resize r c, PMat =>
      x = M (mkMat r c (fun i j => match kd with CBound => if i =? j then n1 else n0 | _ => n0 end))
  | Resize r _, _ => x = V (mkVec r (fun _ => n0))
  | SetMatrix m, PMat => x = M m
  | SetVector v, PVec | SetLowerBound v, PLow | SetUpperBound v, PUp => x = V v
  | _, _ => False
  end.

(** The objects the constructors give, with their numbers of rows and columns. *)
Inductive built (name : string) : constr K -> nat -> nat -> Prop :=
| built_bare kd : built name (bare name kd) 0 0
| built_eq r c : built name (new_eq name r c) r c
| built_ineq r c : built name (new_ineq name r c) r c
| built_bound n : built name (new_bound name n) n n
| built_eq_data A b k : make_eq name A b = Some k -> built name k (mrows A) (mcols A)
| built_ineq_data A lb ub k : make_ineq name A lb ub = Some k -> built name k (mrows A) (mcols A)
| built_bound_data lb ub k : make_bound name lb ub = Some k -> built name k (vlen lb) (vlen lb).

(** The size of the last resize that did not throw. *)
Fixpoint size_after (r c : nat) (l : list (ccall K * option bool)) : nat * nat :=
  match l with
  | [] => (r, c)
  | (Resize r' c', Some true) :: l' => size_after r' c' l'
  | _ :: l' => size_after r c l'
  end.
(** The caller gives vectors with as many entries as the constraint has rows. *)
Fixpoint fitting (r c : nat) (l : list (ccall K * option bool)) : Prop :=
  match l with
  | [] => True
  | (Resize r' c', Some true) :: l' => fitting r' c' l'
  | ((SetVector v | SetLowerBound v | SetUpperBound v), _) :: l' => vlen v = r /\ fitting r c l'
  | _ :: l' => fitting r c l'
  end.

(** ** Proofs *)
Lemma did_app nd l1 l2 (k k2 : constr K) : did nd k (l1 ++ l2) k2 -> exists k1, did nd k l1 k1 /\ did nd k1 l2 k2.
Proof.
  revert k. induction l1 as [|a l1 IH]; intros k D; [exists k; split; [constructor|exact D]|].
  cbn [app] in D. inversion D as [|? ? ? k3' ? ? S D'|? ? k3' ? ? S D']; subst.
  - destruct (IH _ D') as (k3 & A & B). exists k3. split; [econstructor; eassumption|exact B].
  - destruct (IH _ D') as (k3 & A & B). exists k3. split; [eapply did_exc; eassumption|exact B].
Qed.
(** An exception or a false leaves everything as it was. *)
Lemma step_refused nd (k : constr K) o k' : cstep nd k o = Exc k' \/ cstep nd k o = Ret k' false -> k' = k.
Proof.
  intros [H|H]; destruct o; cbn in H; unfold cresize, cset_vec, cset_lb, cset_ub in H; cases H; congruence.
Qed.
Lemma step_frame nd (k : constr K) o b k' : cstep nd k o = Ret k' b ->
  c_name k' = c_name k /\ c_kind k' = c_kind k /\ (forall p, ~ touches o p -> part_of k' p = part_of k p).
Proof.
  intros H. destruct o; cbn in H; unfold cresize, cset_mat, cset_vec, cset_lb, cset_ub in H; cases H;
    injection H as <- <-; do 2 (split; [cbn; congruence|]); intros p T; destruct p; try reflexivity;
    exfalso; apply T; exact I.
Qed.
Lemma step_gives nd (k : constr K) o k' p x : cstep nd k o = Ret k' true -> has (c_kind k) p ->
  gives (c_kind k) o p x -> part_of k' p = x.
Proof.
  intros H Hp G. destruct o; cbn in H; unfold cresize, cset_mat, cset_vec, cset_lb, cset_ub in H; cases H;
    injection H as <-; destruct p; cbn in Hp, G; try contradiction; subst x; try reflexivity.
  all: cbn; try reflexivity.
Qed.
Lemma did_same nd (k : constr K) l k' : did nd k l k' -> c_name k' = c_name k /\ c_kind k' = c_kind k.
Proof.
  induction 1 as [|k o b k1 l k2 S D [I1 I2]|k o k1 l k2 S D [I1 I2]]; [split; reflexivity| |].
  - destruct (step_frame _ _ _ _ _ S) as (A & B & _). split; congruence.
  - rewrite (step_refused _ _ _ _ (or_introl S)) in *. split; congruence.
Qed.
Lemma did_keeps nd (k : constr K) l k' p : did nd k l k' ->
  (forall o, In (o, Some true) l -> ~ touches o p) -> part_of k' p = part_of k p.
Proof.
  induction 1 as [|k o b k1 l k2 S D I|k o k1 l k2 S D I]; intros Q; [reflexivity| |].
  - rewrite I by (intros o' Ho; apply Q; right; exact Ho). destruct b.
    + apply (step_frame _ _ _ _ _ S). apply Q. left. reflexivity.
    + rewrite (step_refused _ _ _ _ (or_intror S)). reflexivity.
  - rewrite I by (intros o' Ho; apply Q; right; exact Ho).
    rewrite (step_refused _ _ _ _ (or_introl S)). reflexivity.
Qed.
Theorem last_word nd (k : constr K) l1 o l2 k' p x : did nd k (l1 ++ (o, Some true) :: l2) k' ->
  has (c_kind k) p -> gives (c_kind k) o p x -> (forall o', In (o', Some true) l2 -> ~ touches o' p) ->
  part_of k' p = x.
Proof.
  intros D Hp G Q. destruct (did_app _ _ _ _ _ D) as (k1 & D1 & D2). destruct (did_same _ _ _ _ D1) as [_ E].
  inversion D2 as [|? ? ? k2 ? ? S D'|]; subst. rewrite (did_keeps _ _ _ _ p D' Q). rewrite <- E in Hp, G.
  exact (step_gives _ _ _ _ _ _ S Hp G).
Qed.

(** When a call throws, is undefined, or has no effect. *)
Theorem step_throws nd (k : constr K) o :
  (exists k', cstep nd k o = Exc k') <->
  match o with
  | Resize r c => c_kind k = CBound /\ r <> c
  | SetMatrix m => mcols m <> mcols (c_mat k) \/ mrows m <> mrows (c_mat k)
  | _ => False
  end.
Proof.
  destruct o; cbn; unfold cresize, cset_mat, cset_vec, cset_lb, cset_ub.
  - destruct (c_kind k); try (split; [intros (k' & H); discriminate|intros [H _]; discriminate]).
    destruct (Nat.eqb_spec r c) as [E|E]; (split; [intros (k' & H)|intros [_ H]]); try discriminate; try contradiction; eauto.
  - destruct (Nat.eqb_spec (mcols (c_mat k)) (mcols m)) as [E|E];
      [destruct (Nat.eqb_spec (mrows (c_mat k)) (mrows m)) as [F|F]|];
      (split; [intros (k' & H)|intros H]); try discriminate; eauto; try lia.
  - destruct (c_kind k), nd; (split; [intros (k' & H); discriminate|contradiction]).
  - destruct (c_kind k), nd; (split; [intros (k' & H); discriminate|contradiction]).
  - destruct (c_kind k), nd; (split; [intros (k' & H); discriminate|contradiction]).
Qed.
Theorem step_wrong nd (k : constr K) o :
  (cstep nd k o = (if nd then Ret k false else Undef)) <->
  match o with
  | SetVector _ => c_kind k <> CEq
  | SetLowerBound _ | SetUpperBound _ => c_kind k = CEq
  | _ => False
  end.
Proof.
  destruct o; cbn; unfold cresize, cset_mat, cset_vec, cset_lb, cset_ub.
  - destruct (c_kind k), nd; try destruct (r =? c); (split; [discriminate|contradiction]).
  - destruct (mcols (c_mat k) =? mcols m), (mrows (c_mat k) =? mrows m), nd; (split; [discriminate|contradiction]).
  - destruct (c_kind k), nd; (split; [|]); intros; try reflexivity; try discriminate; try congruence.
  - destruct (c_kind k), nd; (split; [|]); intros; try reflexivity; try discriminate; try congruence.
  - destruct (c_kind k), nd; (split; [|]); intros; try reflexivity; try discriminate; try congruence.
Qed.

Theorem step_else nd (k : constr K) o :
  (exists k', cstep nd k o = Exc k') \/ cstep nd k o = (if nd then Ret k false else Undef) \/
  (exists k', cstep nd k o = Ret k' true).
Proof.
  destruct o; cbn; unfold cresize, cset_mat, cset_vec, cset_lb, cset_ub.
  - destruct (c_kind k); try destruct (r =? c); eauto.
  - destruct (mcols (c_mat k) =? mcols m), (mrows (c_mat k) =? mrows m); eauto.
  - destruct (c_kind k); eauto.
  - destruct (c_kind k); eauto.
  - destruct (c_kind k); eauto.
Qed.

(** Sizes. *)
Definition sized (k : constr K) (r c : nat) : Prop :=
  match c_kind k with
  | CEq => mrows (c_mat k) = r /\ mcols (c_mat k) = c /\ vlen (c_vec k) = r
  | CIneq => mrows (c_mat k) = r /\ mcols (c_mat k) = c /\ vlen (c_lb k) = r /\ vlen (c_ub k) = r
  | CBound => r = c /\ mrows (c_mat k) = r /\ mcols (c_mat k) = c /\ vlen (c_lb k) = r /\ vlen (c_ub k) = r
  end.
Lemma built_sized name (k : constr K) r c : built name k r c -> sized k r c.
Proof.
  destruct 1; unfold make_eq, make_ineq, make_bound in *.
  1: destruct kd; cbn; auto.
  1-3: cbn; auto.
  all: cases H; injection H as <-; rewrite ?Nat.eqb_eq in *; cbn; auto.
Qed.
Lemma did_sized nd (k : constr K) l k' : did nd k l k' -> forall r c, sized k r c -> fitting r c l ->
  sized k' (fst (size_after r c l)) (snd (size_after r c l)).
Proof.
  induction 1 as [|k o b k1 l k2 S D I|k o k1 l k2 S D I]; intros r c Z F; [exact Z| |].
  - destruct b.
    + destruct o; cbn [fitting size_after] in *.
      * apply I; [|exact F]. cbn in S. unfold cresize in S. cases S; injection S as <-; cbn; auto.
        apply Nat.eqb_eq in Heqb. subst. auto.
      * apply I; [|exact F]. cbn in S. cases S. injection S as <-. apply Nat.eqb_eq in Heqb, Heqb0.
        unfold sized, cset_mat in *. cbn. destruct (c_kind k); rewrite <- ?Heqb, <- ?Heqb0; exact Z.
      * destruct F as [Fv F]. apply I; [|exact F]. cbn in S. unfold cset_vec in S. cases S; injection S as <-.
        unfold sized in *. cbn. rewrite Heqc0 in Z. tauto.
      * destruct F as [Fv F]. apply I; [|exact F]. cbn in S. unfold cset_lb in S. cases S; injection S as <-;
        unfold sized in *; cbn; rewrite Heqc0 in Z; tauto.
      * destruct F as [Fv F]. apply I; [|exact F]. cbn in S. unfold cset_ub in S. cases S; injection S as <-;
        unfold sized in *; cbn; rewrite Heqc0 in Z; tauto.
    + rewrite (step_refused _ _ _ _ (or_intror S)) in *.
      destruct o; cbn [fitting size_after] in *; try destruct F as [_ F]; apply I; assumption.
  - rewrite (step_refused _ _ _ _ (or_introl S)) in *.
    destruct o; cbn [fitting size_after] in *; try destruct F as [_ F]; apply I; assumption.
Qed.
Lemma sized_wf (k : constr K) r c : sized k r c -> crows k = Some r /\ ccols k = Some c /\ cwf c k.
Proof.
  unfold sized, crows, ccols, cwf. destruct (c_kind k).
  - intros (A & B & C). rewrite A, B, C, Nat.eqb_refl. auto.
  - intros (A & B & C & D). rewrite A, B, C, D, Nat.eqb_refl. auto.
  - intros (E & A & B & C & D). rewrite C, D, Nat.eqb_refl. subst. auto.
Qed.
Theorem life_sized nd name (k : constr K) r c l k' : built name k r c -> did nd k l k' -> fitting r c l ->
  crows k' = Some (fst (size_after r c l)) /\ ccols k' = Some (snd (size_after r c l)) /\
  cwf (snd (size_after r c l)) k'.
Proof. intros B D F. apply sized_wf. eapply did_sized; eauto using built_sized. Qed.
End Spec.
Arguments value : clear implicits.

(** ** What checkConstraint decides *)
(** The vectors [x] that satisfy, up to [tol], the constraint with the given class and
    parts: written with the values the user supplied, not with the object. *)
Definition meets (kd : ckind) (r c : nat) (A : nat -> nat -> R) (b lb ub : nat -> R) (x : nat -> R) (tol : R) : Prop :=
  match kd with
  | CEq => (sqrt (rsum r (fun i => (rsum c (fun j => A i j * x j) - b i) * (rsum c (fun j => A i j * x j) - b i))) < tol)%R
  | CIneq => forall i, i < r -> (lb i - tol <= rsum c (fun j => A i j * x j) <= ub i + tol)%R
  | CBound => forall i, i < r -> (lb i - tol <= x i <= ub i + tol)%R
  end.
Theorem life_check nd name (k k' : constr Rnum) r c l (x : vec Rnum) (tol : R) :
  built name k r c -> did nd k l k' -> fitting r c l -> vlen x = snd (size_after r c l) ->
  exists ok, check sqrt k' x tol = Some ok /\
    (ok = true <-> meets (c_kind k) (fst (size_after r c l)) (snd (size_after r c l))
                     (mget (c_mat k')) (vget (c_vec k')) (vget (c_lb k')) (vget (c_ub k')) (vget x) tol).
Proof.
  intros B D F L. pose proof (did_sized _ _ _ _ D _ _ (built_sized _ _ _ _ B) F) as Z.
  destruct (sized_wf _ _ _ Z) as (_ & _ & W). destruct (check_within _ k' x tol W L) as (ok & E & H).
  exists ok. split; [exact E|]. rewrite H. destruct (did_same _ _ _ _ D) as [_ Ek].
  unfold within, meets, lhs, sqnorm, sized in *. rewrite <- Ek. destruct (c_kind k').
  - destruct Z as (Z1 & Z2 & Z3). rewrite Z2, Z3. reflexivity.
  - destruct Z as (Z1 & Z2 & Z3 & Z4). rewrite Z2, Z3. reflexivity.
  - destruct Z as (Z1 & Z2 & Z3 & Z4 & Z5). rewrite Z4. reflexivity.
Qed.
(** Straight after a resize. *)
Theorem resized nd (k k' : constr Rnum) r c b (x : vec Rnum) (tol : R) :
  cstep nd k (Resize r c) = Ret k' b -> vlen x = c -> (0 < tol)%R ->
  (c_kind k <> CBound -> check sqrt k' x tol = Some true) /\
  (c_kind k = CBound -> exists ok, check sqrt k' x tol = Some ok /\
     (ok = true <-> forall i, i < c -> (Rabs (vget x i) <= tol)%R)).
Proof.
  intros S L T. cbn in S. unfold cresize in S.
  destruct (c_kind k) eqn:Ek; [| |destruct (Nat.eqb_spec r c) as [E|E]; [|discriminate]]; injection S as <- <-.
  - split; [|discriminate]. intros _. eapply (check_exact c); [cbn; auto|exact L|exact T|].
    intros i Hi. unfold lhs. cbn -[rsum]. apply rsum_zero. intros. ring.
  - split; [|discriminate]. intros _. eapply (check_exact c); [cbn; auto|exact L|exact T|].
    intros i Hi. unfold lhs. cbn -[rsum]. rewrite rsum_zero; [cbn; lra|]. intros. ring.
  - subst r. split; [congruence|]. intros _.
    match goal with |- context [check sqrt ?q x tol] => destruct (check_within c q x tol) as (ok & E & H) end;
      [cbn; auto|exact L|]. exists ok. split; [exact E|]. rewrite H. unfold within, lhs. cbn.
    split; intros Z i Hi; specialize (Z i Hi); [apply Rabs_le; lra|].
    apply Rabs_def2' in Z || (unfold Rabs in Z; destruct (Rcase_abs _) in Z; lra).
Qed.
(** The matrix of a bound is stored and ignored. *)
Theorem bound_matrix nd (k : constr Rnum) m : c_kind k = CBound ->
  mrows m = mrows (c_mat k) -> mcols m = mcols (c_mat k) ->
  exists k', cstep nd k (SetMatrix m) = Ret k' true /\ c_mat k' = m /\
    (forall x tol, check sqrt k' x tol = check sqrt k x tol) /\ (forall x, sat k' x <-> sat k x).
Proof.
  intros E Hr Hc. exists (cset_mat k m). cbn. rewrite Hr, Hc, !Nat.eqb_refl. do 2 (split; [reflexivity|]).
  split; intros; [unfold check|unfold sat, lhs]; cbn; rewrite E; reflexivity.
Qed.
(** A bound of the wrong size is accepted; afterwards rows() fails its assertion. *)
Theorem wrong_size {K : num} nd (k : constr K) r c v : c_kind k <> CEq -> crows k = Some r -> ccols k = Some c -> vlen v <> r ->
  exists k', cstep nd k (SetLowerBound v) = Ret k' true /\ crows k' = None.
Proof.
  intros E Hr Hc L. unfold crows in *. cbn. unfold cset_lb.
  destruct (c_kind k) eqn:Ek; [congruence| |]; eexists; (split; [reflexivity|]); cbn.
  - destruct (mrows (c_mat k) =? vlen (c_lb k)) eqn:A; [|discriminate].
    destruct (mrows (c_mat k) =? vlen (c_ub k)) eqn:B; [|discriminate]. injection Hr as Hr.
    destruct (Nat.eqb_spec (mrows (c_mat k)) (vlen v)); [congruence|reflexivity].
  - destruct (vlen (c_lb k) =? vlen (c_ub k)) eqn:A; [|discriminate]. apply Nat.eqb_eq in A. injection Hr as Hr.
    destruct (Nat.eqb_spec (vlen v) (vlen (c_ub k))); [congruence|reflexivity].
Qed.
(** The constructors with data. *)
Theorem made {K : num} name (A : mat K) b lb ub :
  (make_eq name A b = None <-> mrows A <> vlen b) /\
  (make_ineq name A lb ub = None <-> mrows A <> vlen lb \/ mrows A <> vlen ub) /\
  (make_bound name lb ub = None <-> vlen lb <> vlen ub) /\
  (forall k, make_eq name A b = Some k -> c_name k = name /\ c_kind k = CEq /\ c_mat k = A /\ c_vec k = b) /\
  (forall k, make_ineq name A lb ub = Some k ->
     c_name k = name /\ c_kind k = CIneq /\ c_mat k = A /\ c_lb k = lb /\ c_ub k = ub) /\
  (forall k, make_bound name lb ub = Some k -> c_name k = name /\ c_kind k = CBound /\ c_lb k = lb /\ c_ub k = ub /\
     forall i j, mget (c_mat k) i j = if i =? j then n1 else n0).
Proof.
  unfold make_eq, make_ineq, make_bound. split; [|split; [|split; [|split; [|split]]]].
  - destruct (Nat.eqb_spec (mrows A) (vlen b)); split; intros; try discriminate; try contradiction; auto.
  - destruct (Nat.eqb_spec (mrows A) (vlen lb)), (Nat.eqb_spec (mrows A) (vlen ub)); split; intros; try discriminate; try lia; auto.
  - destruct (Nat.eqb_spec (vlen lb) (vlen ub)); split; intros; try discriminate; try contradiction; auto.
  - intros k H. cases H. injection H as <-. cbn. auto.
  - intros k H. cases H. injection H as <-. cbn. auto.
  - intros k H. cases H. injection H as <-. cbn. auto 6.
Qed.
(** The constructors with sizes: everything is zero, the matrix of a bound is the
    identity. *)
Theorem zeroed {K : num} name r c :
  let zero (x : value K) := match x with M m => forall i j, mget m i j = n0 | V v => forall i, vget v i = n0 end in
  (forall p, zero (part_of (new_eq name r c) p)) /\ (forall p, zero (part_of (new_ineq name r c) p)) /\
  (forall p, p <> PMat -> zero (part_of (new_bound name r) p)) /\
  (forall i j, mget (c_mat (@new_bound K name r)) i j = if i =? j then n1 else n0) /\
  c_kind (@new_eq K name r c) = CEq /\ c_kind (@new_ineq K name r c) = CIneq /\ c_kind (@new_bound K name r) = CBound /\
  c_name (@new_eq K name r c) = name /\ c_name (@new_ineq K name r c) = name /\ c_name (@new_bound K name r) = name.
Proof.
  cbn. do 3 (split; [intros p; destruct p; cbn; try (intros Hp; congruence); intros; reflexivity|]).
  do 6 (split; [reflexivity|]). reflexivity.
Qed.
