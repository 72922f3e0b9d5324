(** The tasks of the exercise biped never change: what the constructor of TsidBiped adds is there
    in every period (exercizes/tsid_biped.py:32-157, 262-301). *)
From Coq Require Import String List Arith Bool ZArith Lia Permutation.
From Verif Require Import Scalar Outcome Linalg Constraint Formulation ListUtil FormSpec FormInv FormInvB FormInvC FormOps FormSafe FormSafe2 FormContact FormPhys FormMain FormCheck Walking WalkingSpec WalkingP WalkingQ.
Import ListNotations.
Open Scope string_scope.
Open Scope list_scope.
Open Scope nat_scope.

Section Book.
Context {K : num}.
Variable dbg : bool.
Local Notation fstate := (fstate K).
Local Notation step := (@Formulation.step K dbg).
(** Tasks with identifier, name and level; measured forces; contacts being removed. *)
Definition ledger : Type := list (nat * string * nat) * list (nat * string * nat) * list (nat * string * nat) * list (nat * string) * list (ctrans K).
Definition entry_of (t : tlevel) : nat * string * nat := (tl_task t, tl_name t, tl_prio t).
Definition book (s : fstate) : ledger :=
  (map entry_of (f_motions s), map entry_of (f_forces s), map entry_of (f_acts s), f_meas s, f_trans s).
Definition write (o : fop K) (b : ledger) :=
  let '(m, f, a, x, z) := b in
  match o with
  | OAddMotion id n _ _ _ l _ => (m ++ [(id, n, l)], f, a, x, z)
  | OAddForce id n _ _ _ l _ => (m, f ++ [(id, n, l)], a, x, z)
  | OAddAct id n _ _ _ l _ => (m, f, a ++ [(id, n, l)], x, z)
  | _ => b
  end.
Definition calm (o : fop K) : Prop :=
  match o with
  | ONewContact _ | OAddMotion _ _ _ _ _ _ _ | OAddForce _ _ _ _ _ _ _ | OAddAct _ _ _ _ _ _ _ | OAddContact _ _ _ _ | OCompute _ _ | OGet _ _ => True
  | ORemContact _ T => (n0 <? T)%num = false
  | _ => False
  end.
Lemma resize_book (s s' : fstate) : resize_hqp s = Some s' -> book s' = book s.
Proof. unfold resize_hqp. intros H. repeat (ob H). injection H as <-. reflexivity. Qed.
Lemma erase_book (s : fstate) n : book (fst (erase_hqp s n)) = book s.
Proof. unfold erase_hqp. destruct (erase_levels _ _ _); reflexivity. Qed.
Lemma same_book (s s' : fstate) : same s s' -> f_meas s' = f_meas s -> f_trans s' = f_trans s -> book s' = book s.
Proof. intros H E G. unfold book. rewrite (sm_mot _ _ H), (sm_for _ _ H), (sm_act _ _ H), E, G. reflexivity. Qed.
Lemma task_book (s : fstate) n kd r w l (s' : fstate) a : add_task_cstr s n kd r w l = Some (s', a) -> f_motions s' = f_motions s /\ f_forces s' = f_forces s /\ f_acts s' = f_acts s /\ f_meas s' = f_meas s /\ f_trans s' = f_trans s.
Proof. intros H. apply add_task_cstr_spec in H. destruct H as (? & ? & ? & _ & _ & _ & _ & _ & ->). destruct (l =? 0); [destruct (is_eq kd)|]; repeat split. Qed.
Lemma remove_now_book (s : fstate) n (s' : fstate) b : remove_contact_now dbg s n = Ret s' b -> book s' = book s.
Proof.
  unfold remove_contact_now.
  destruct (erase_hqp s (n ++ "_motion_task")) as [s1 b1] eqn:E1. destruct (erase_hqp s1 (n ++ "_force_constraint")) as [s2 b2] eqn:E2. destruct (erase_hqp s2 (n ++ "_force_reg_task")) as [s3 b3] eqn:E3.
  assert (B1 := erase_book s (n ++ "_motion_task")). rewrite E1 in B1. assert (B2 := erase_book s1 (n ++ "_force_constraint")). rewrite E2 in B2. assert (B3 := erase_book s2 (n ++ "_force_reg_task")). rewrite E3 in B3. cbn [fst] in *.
  intros H.
  match type of H with match ?e with _ => _ end = _ => destruct e as [[s4 b4]|] eqn:E; [|discriminate] end. injection H as <- _.
  repeat (ob E). destruct a3 as [s5 found]. injection E as <- _.
  change (book s5 = book s). rewrite <- B1, <- B2, <- B3.
  match goal with X : match take_contact s3 n (f_contacts s3) with _ => _ end = Some (s5, found) |- _ => rename X into T end.
  destruct (take_contact s3 n (f_contacts s3)) as [[c rest]|]; [|injection T as <- _; reflexivity].
  repeat (ob T). injection T as <- _.
  match goal with X : resize_hqp _ = Some _ |- _ => apply resize_book in X; rewrite X end. cbn [book f_motions f_forces f_acts f_meas w_contacts w_in].
  change (book a3 = book s3). destruct (match a with Some p => p =? 0 | None => false end); [repeat (ob E); injection E as <-|injection E as <-]; reflexivity.
Qed.
Lemma step_book (s : fstate) o (s' : fstate) r : calm o -> f_trans s = [] -> step s o = Ret s' r -> book s' = write o (book s).
Proof.
  intros Ca T. destruct o; try contradiction; cbn [Formulation.step].
  - intros H. injection H as <- _. reflexivity.
  - unfold add_motion. destruct (args_ok _ _); [|discriminate]. destruct (add_task_cstr _ _ _ _ _ _) as [[s1 a]|] eqn:E; [|discriminate]. intros H. injection H as <- _.
    destruct (task_book _ _ _ _ _ _ _ _ E) as (F1 & F2 & F3 & F4 & F5). unfold book, write. cbn. rewrite F1, F2, F3, F4, F5, map_app. reflexivity.
  - unfold add_force. destruct (args_ok _ _); [|discriminate]. destruct (add_task_cstr _ _ _ _ _ _) as [[s1 a]|] eqn:E; [|discriminate]. intros H. injection H as <- _.
    destruct (task_book _ _ _ _ _ _ _ _ E) as (F1 & F2 & F3 & F4 & F5). unfold book, write. cbn. rewrite F1, F2, F3, F4, F5, map_app. reflexivity.
  - unfold add_act. destruct (args_ok _ _); [|discriminate]. destruct (add_task_cstr _ _ _ _ _ _) as [[s1 a]|] eqn:E; [|discriminate]. intros H. injection H as <- _.
    destruct (task_book _ _ _ _ _ _ _ _ E) as (F1 & F2 & F3 & F4 & F5). unfold book, write. cbn. rewrite F1, F2, F3, F4, F5, map_app. reflexivity.
  - unfold lift. destruct (add_contact _ _ _ _ _) as [s1 b| |] eqn:E; [|discriminate|discriminate]. intros H. injection H as <- _.
    apply add_contact_spec in E. destruct E as (_ & x & s2 & q1 & q2 & q3 & _ & Hz & _ & _ & _ & ->). apply resize_book in Hz. destruct (book s) as [[[[m f] a] y] z] eqn:Eb.
    transitivity (book s2); [destruct (lvl =? 0); reflexivity|]. rewrite Hz. exact Eb.
  - unfold remove_contact. cbn in Ca. rewrite Ca. unfold lift. destruct (remove_contact_now _ _ _) as [s1 b| |] eqn:E; [|discriminate|discriminate]. intros H. injection H as <- _.
    rewrite (remove_now_book _ _ _ _ E). destruct (book s) as [[[[m f] a] y] z]. reflexivity.
  - unfold compute. cbv zeta. change (f_trans (w_t s t)) with (f_trans s). rewrite T. cbn [run_transitions]. destruct (comp_fill _ _) as [s1|] eqn:E; [|discriminate]. intros H. injection H as <- _.
    assert (Sm := comp_fill_same _ _ _ E). destruct (comp_fill_obs _ _ _ E) as (_ & M & _). destruct (comp_fill_trans _ _ _ E) as (N & _). rewrite (same_book _ _ Sm M N). change (book (w_t s t)) with (book s). destruct (book s) as [[[[m f] a] y] z]. reflexivity.
  - unfold lift. destruct (get s g x) as [s1 v| |] eqn:E; [|discriminate|discriminate]. intros H. injection H as <- _.
    assert (D : decode s x = Some s1).
    { unfold get in E. destruct (decode s x) as [s2|]; [|discriminate]. destruct g; try (injection E as <- _; reflexivity). destruct (find_contact s2 name); [|injection E as <- _; reflexivity]. destruct (vsegment _ _ _); [|discriminate]. injection E as <- _; reflexivity. }
    assert (M : f_meas s1 = f_meas s /\ f_trans s1 = f_trans s). { unfold decode in D. destruct (f_dec s); [injection D as <-; auto|]. repeat (ob D). injection D as <-. auto. }
    rewrite (same_book _ _ (decode_same _ _ _ D) (proj1 M) (proj2 M)). destruct (book s) as [[[[m f] a] y] z]. reflexivity.
Qed.
End Book.
