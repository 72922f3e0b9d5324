(** Masks of the joint tasks.

    The same loop is written out in
    src/tasks/task-joint-posture.cpp:34-54 (setMask),
    src/tasks/task-joint-posVelAcc-bounds.cpp:104-123 (setMask),
    src/tasks/task-actuation-bounds.cpp:24-45 (mask),
    src/tasks/task-actuation-equality.cpp:26-54 (mask). *)
From Coq Require Import List Arith Bool ZArith Lia.
From Verif Require Import Scalar Outcome Linalg.
Import ListNotations.
Open Scope nat_scope.

Section Masks.
Context {K : num}.
(** static_cast<Eigen::Index>(double) and (int)double: truncation. *)
Variable toZ : K -> Z.

(** Result of the loop: the selection matrix and m_activeAxes, or the throw at the
    first entry that is neither 0 nor 1 (m_mask and m_activeAxes are modified by then),
    or undefined behaviour. *)
Inductive mres :=
| MOk (dim : nat) (S : mat K) (ax : nat -> nat)
| MThrow (dim : nat) (ax : nat -> nat)
| MUndef.

(** One iteration: S(j, off + i) = val(i); m_activeAxes(j) = i; j++. *)
Record mloop := mkLoop { l_S : nat -> nat -> K; l_ax : nat -> nat; l_j : nat }.
Inductive lres := LGo (l : mloop) | LThrow (l : mloop) | LUndef.
Definition mask_step (dim cols off : nat) (val : nat -> K) (m : vec K) (r : lres) (i : nat) : lres :=
  match r with
  | LGo l =>
      if (vget m i =? n0)%num then LGo l
      else if negb (vget m i =? n1)%num then LThrow l
      else if (l_j l <? dim) && (off + i <? cols) then
        LGo (mkLoop (fun x y => if (x =? l_j l) && (y =? off + i) then val i else l_S l x y)
                    (fun x => if x =? l_j l then i else l_ax l x) (S (l_j l)))
      else LUndef
  | r => r
  end.
(** dim = sum of the mask; a negative size fails eigen_assert.  [jk] is the memory
    m_activeAxes.resize leaves uninitialised. *)
Definition set_mask (jk : nat -> nat) (cols off : nat) (val : nat -> K) (m : vec K) : mres :=
  let d := toZ (nsum (vlen m) (vget m)) in
  if (d <? 0)%Z then MUndef
  else let dim := Z.to_nat d in
    match fold_left (mask_step dim cols off val m) (seq 0 (vlen m)) (LGo (mkLoop (fun _ _ => n0) jk 0)) with
    | LGo l => MOk dim (mkMat dim cols (l_S l)) (l_ax l)
    | LThrow l => MThrow dim (l_ax l)
    | LUndef => MUndef
    end.

(** * Specification: the active joints, in order. *)
Definition is_on (m : vec K) (i : nat) : bool := negb (vget m i =? n0)%num.
Definition actives (m : vec K) : list nat := filter (is_on m) (seq 0 (vlen m)).
Definition mask01 (m : vec K) : Prop :=
  forall i, i < vlen m -> (vget m i =? n0)%num = true \/ (vget m i =? n1)%num = true.
(** The sum of the mask, truncated, is the number of active joints. *)
Definition counted (m : vec K) : Prop := toZ (nsum (vlen m) (vget m)) = Z.of_nat (length (actives m)).
(** Row [j] holds val(i) in the column of the [j]-th active joint [i] and zeros. *)
Definition selects (off : nat) (val : nat -> K) (l : list nat) (M : mat K) : Prop :=
  mrows M = length l /\
  forall j i, nth_error l j = Some i -> forall y, y < mcols M -> mget M j y = if y =? off + i then val i else n0.

Definition loop_inv (off : nat) (val : nat -> K) (m : vec K) (k : nat) (l : mloop) : Prop :=
  let done := filter (is_on m) (seq 0 k) in
  l_j l = length done /\
  (forall j i, nth_error done j = Some i -> l_ax l j = i /\ forall y, l_S l j y = if y =? off + i then val i else n0) /\
  (forall j y, length done <= j -> l_S l j y = n0).
Lemma filter_len {A} (f : A -> bool) l : length (filter f l) <= length l.
Proof. induction l as [|a l IH]; simpl; [lia|]. destruct (f a); simpl; lia. Qed.
Lemma filter_seq_app (f : nat -> bool) a b : filter f (seq 0 (a + b)) = filter f (seq 0 a) ++ filter f (seq a b).
Proof. rewrite seq_app, filter_app. reflexivity. Qed.

Lemma loop_ok jk cols off val (m : vec K) : mask01 m -> off + vlen m <= cols -> forall k, k <= vlen m ->
  exists l, fold_left (mask_step (length (actives m)) cols off val m) (seq 0 k) (LGo (mkLoop (fun _ _ => n0) jk 0)) = LGo l /\
            loop_inv off val m k l.
Proof.
  intros H01 Hc. induction k as [|k IH]; intros Hk.
  - eexists. split; [reflexivity|]. split; [reflexivity|]. split; [intros [|j] i E; discriminate|]. reflexivity.
  - destruct IH as (l & E & I1 & I2 & I3); [lia|].
    assert (Es : seq 0 (S k) = seq 0 k ++ [k]) by (replace (S k) with (k + 1) by lia; rewrite seq_app; reflexivity).
    rewrite Es, fold_left_app, E. cbn [fold_left mask_step]. unfold loop_inv. rewrite Es, filter_app. cbn [filter].
    unfold is_on at 2 4 6. destruct (vget m k =? n0)%num eqn:E0; cbn [negb].
    + exists l. split; [reflexivity|]. rewrite app_nil_r. split; [exact I1|]. split; [exact I2|exact I3].
    + destruct (H01 k ltac:(lia)) as [X|X]; [congruence|]. rewrite X. cbn [negb].
      assert (B : l_j l < length (actives m)).
      { rewrite I1. unfold actives. replace (vlen m) with (k + S (vlen m - S k)) by lia.
        rewrite filter_seq_app, app_length. cbn [seq filter]. unfold is_on at 3. rewrite E0. cbn [negb length]. lia. }
      replace (l_j l <? length (actives m)) with true by (symmetry; apply Nat.ltb_lt; exact B).
      replace (off + k <? cols) with true by (symmetry; apply Nat.ltb_lt; lia). cbn [andb].
      eexists. split; [reflexivity|]. cbn [l_j l_ax l_S]. rewrite app_length. cbn [length].
      split; [rewrite I1; lia|]. split.
      * intros j i Hj. destruct (Nat.lt_ge_cases j (length (filter (is_on m) (seq 0 k)))) as [Hl|Hl].
        -- rewrite nth_error_app1 in Hj by exact Hl. destruct (I2 j i Hj) as [A B'].
           replace (j =? l_j l) with false by (symmetry; apply Nat.eqb_neq; lia). cbn [andb]. split; [exact A|exact B'].
        -- rewrite nth_error_app2 in Hj by exact Hl.
           destruct (j - length (filter (is_on m) (seq 0 k))) as [|q] eqn:Eq; [|destruct q; discriminate].
           cbn [nth_error] in Hj. injection Hj as <-. replace (j =? l_j l) with true by (symmetry; apply Nat.eqb_eq; lia).
           cbn [andb]. split; [reflexivity|]. intros y. destruct (y =? off + k); [reflexivity|]. apply I3. lia.
      * intros j y Hj. replace (j =? l_j l) with false by (symmetry; apply Nat.eqb_neq; lia). cbn [andb]. apply I3. lia.
Qed.
Theorem set_mask_ok jk cols off val (m : vec K) : mask01 m -> counted m -> off + vlen m <= cols ->
  exists S ax, set_mask jk cols off val m = MOk (length (actives m)) S ax /\
    selects off val (actives m) S /\ mcols S = cols /\
    forall j i, nth_error (actives m) j = Some i -> ax j = i.
Proof.
  intros H01 Hn Hc. unfold set_mask. rewrite Hn.
  replace (Z.of_nat (length (actives m)) <? 0)%Z with false by (symmetry; apply Z.ltb_ge; lia). rewrite Nat2Z.id.
  destruct (loop_ok jk cols off val m H01 Hc (vlen m) (le_n _)) as (l & -> & I1 & I2 & I3).
  eexists _, _. split; [reflexivity|]. split; [|split; [reflexivity|]].
  - split; [reflexivity|]. intros j i Hj y _. cbn [mget]. apply (I2 j i Hj).
  - intros j i Hj. apply (I2 j i Hj).
Qed.
(** Some entry is neither 0 nor 1: never accepted. *)
Lemma loop_stuck dim cols off val m l r : (forall x, r <> LGo x) -> fold_left (mask_step dim cols off val m) l r = r.
Proof.
  induction l as [|i l IH]; intros H; [reflexivity|]. cbn [fold_left]. destruct r; [destruct (H _ eq_refl)| |]; apply IH; intros; discriminate.
Qed.
Lemma loop_bad dim cols off val m l : forall r i, In i l -> (vget m i =? n0)%num = false -> (vget m i =? n1)%num = false ->
  forall x, fold_left (mask_step dim cols off val m) l r <> LGo x.
Proof.
  induction l as [|k l IH]; intros r i Hi H0 H1 x; [destruct Hi|]. cbn [fold_left]. destruct Hi as [->|Hi]; [|eapply IH; eassumption].
  assert (B : forall y, mask_step dim cols off val m r i <> LGo y).
  { intros y. destruct r; cbn [mask_step]; [rewrite H0, H1; discriminate|discriminate|discriminate]. }
  rewrite loop_stuck by exact B. apply B.
Qed.
Theorem set_mask_bad jk cols off val (m : vec K) i : i < vlen m ->
  (vget m i =? n0)%num = false -> (vget m i =? n1)%num = false ->
  forall d S ax, set_mask jk cols off val m <> MOk d S ax.
Proof.
  intros Hi H0 H1 d S ax. unfold set_mask. destruct (_ <? 0)%Z; [discriminate|].
  destruct (fold_left _ _ _) eqn:E; [|discriminate|discriminate].
  exfalso. eapply loop_bad; [|exact H0|exact H1|exact E]. apply in_seq. lia.
Qed.
End Masks.
