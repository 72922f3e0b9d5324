(** The number of priority levels never changes (C09). *)
From Coq Require Import String List Arith Bool ZArith Lia.
From Verif Require Import Scalar Outcome Linalg Constraint Formulation ListUtil FormSpec FormInv FormInvB FormInvC FormOps FormSafe FormSafe2.
Import ListNotations.
Open Scope string_scope.
Open Scope list_scope.
Open Scope nat_scope.

Section Levels.
Context {K : num}.
Variable dbg : bool.
Implicit Types (s : fstate K).
Local Notation step := (@Formulation.step K dbg).
Local Notation levels s := (List.length (f_hqp s)).

Lemma erase_levels_len h n ls : forall ls', erase_levels (K:=K) h n ls = Some ls' -> List.length ls' = List.length ls.
Proof.
  induction ls as [|l ls IH]; simpl; intros ls' X; [discriminate|].
  destruct (erase_level h n l); [injection X as <-; reflexivity|].
  destruct (erase_levels h n ls); [|discriminate]. injection X as <-. simpl. f_equal. apply IH; reflexivity.
Qed.
Lemma erase_hqp_len s n : levels (fst (erase_hqp s n)) = levels s.
Proof.
  unfold erase_hqp. destruct (erase_levels (f_heap s) n (f_hqp s)) eqn:E; [apply erase_levels_len in E; exact E|reflexivity].
Qed.
Lemma resize_len s s' : resize_hqp s = Some s' -> f_hqp s' = f_hqp s.
Proof. unfold resize_hqp. intros X. repeat (ob X). injection X as <-. reflexivity. Qed.
Lemma add_task_len s n kd r w lvl s1 a : add_task_cstr s n kd r w lvl = Some (s1, a) -> levels s1 = levels s.
Proof.
  intros E. apply add_task_stored in E. destruct E as (_ & x & _ & -> & _).
  cbn [f_hqp w_hqp]. apply lupd_length.
Qed.
Lemma upd_weight_len h n w ls : forall ls', upd_weight_levels (K:=K) h n w ls = Some ls' -> List.length ls' = List.length ls.
Proof.
  induction ls as [|l ls IH]; simpl; intros ls' X; [discriminate|].
  destruct (upd_weight_level h n w l); [injection X as <-; reflexivity|].
  destruct (upd_weight_levels h n w ls); [|discriminate]. injection X as <-. simpl. f_equal. apply IH; reflexivity.
Qed.
Lemma upd_cw_len h n wf wm ls : forall ff mf ls' b,
  upd_cw_levels (K:=K) h n wf wm ls ff mf = (ls', b) -> List.length ls' = List.length ls.
Proof.
  induction ls as [|l ls IH]; simpl; intros ff mf ls' b X; [injection X as <- _; reflexivity|].
  destruct (upd_cw_level h n wf wm l ff mf) as [l1 [[f1 m1]|u]].
  - destruct (upd_cw_levels h n wf wm ls f1 m1) as [r b'] eqn:E. injection X as <- _. simpl. f_equal. eapply IH; exact E.
  - injection X as <- _. reflexivity.
Qed.
Lemma push_len (q : list (list (K * nat))) l en q' : push_level q l en = Some q' -> List.length q' = List.length q.
Proof. unfold push_level. intros X. ob X. injection X as <-. apply lupd_length. Qed.
Lemma remove_now_len s n s' b : remove_contact_now dbg s n = Ret s' b -> levels s' = levels s.
Proof.
  intros X. apply remove_contact_now_spec in X. cbv zeta in X.
  assert (L3 : levels (erase3 s n) = levels s) by (unfold erase3; rewrite !erase_hqp_len; reflexivity).
  destruct X as [(_ & _ & ->)|(c & r & s4 & mr & fr & _ & _ & _ & Hr & ->)]; [exact L3|].
  apply resize_len in Hr. cbn [f_hqp w_contacts]. rewrite Hr. exact L3.
Qed.
Lemma remove_now_exc s n s' : remove_contact_now dbg s n <> Exc s'.
Proof.
  unfold remove_contact_now. intros E.
  repeat match type of E with context [match ?x with _ => _ end] => destruct x end; discriminate.
Qed.

Theorem levels_step s o s' : after (step s o) = Some s' -> levels s' = levels s.
Proof.
  intros Ha. destruct o; cbn [step Formulation.step] in Ha; try rewrite lift_after in Ha.
  - simpl in Ha. injection Ha as <-. reflexivity.
  - unfold obj_set_fmin in Ha. destruct (cobj_at s o); [|discriminate]. destruct (_ || _); simpl in Ha; injection Ha as <-; reflexivity.
  - unfold obj_set_fmax in Ha. destruct (cobj_at s o); [|discriminate]. destruct (_ || _); simpl in Ha; injection Ha as <-; reflexivity.
  - unfold add_motion in Ha. destruct (args_ok w dur); [|simpl in Ha; injection Ha as <-; reflexivity].
    destruct (add_task_cstr _ _ _ _ _ _) as [[s1 a]|] eqn:E; [|discriminate]. simpl in Ha; injection Ha as <-. exact (add_task_len _ _ _ _ _ _ _ _ E).
  - unfold add_force in Ha. destruct (args_ok w dur); [|simpl in Ha; injection Ha as <-; reflexivity].
    destruct (add_task_cstr _ _ _ _ _ _) as [[s1 a]|] eqn:E; [|discriminate]. simpl in Ha; injection Ha as <-. exact (add_task_len _ _ _ _ _ _ _ _ E).
  - unfold add_act in Ha. destruct (args_ok w dur); [|simpl in Ha; injection Ha as <-; reflexivity].
    destruct (add_task_cstr _ _ _ _ _ _) as [[s1 a]|] eqn:E; [|discriminate]. simpl in Ha; injection Ha as <-. exact (add_task_len _ _ _ _ _ _ _ _ E).
  - unfold upd_task_weight in Ha. destruct (f_hqp s) as [|l0 ls] eqn:Eh; [simpl in Ha; injection Ha as <-; rewrite Eh; reflexivity|].
    destruct (upd_weight_levels _ _ _ _) eqn:E; simpl in Ha; injection Ha as <-; [|rewrite Eh; reflexivity].
    cbn [f_hqp w_hqp]. simpl. rewrite (upd_weight_len _ _ _ _ _ E). reflexivity.
  - destruct (add_contact s o wreg wmot lvl) as [s1 b1|s1|] eqn:E; [| |discriminate].
    + simpl in Ha; injection Ha as <-.
      apply add_contact_spec in E. destruct E as (_ & x' & s2 & q1 & q2 & q3 & Hx & Hr & H).
      cbv zeta in H. apply resize_len in Hr. destruct H as (Hq1 & Hq2 & Hq3 & ->).
      cbn [f_hqp w_hqp w_heap w_contacts w_eq w_in].
      rewrite (push_len _ _ _ _ Hq3), (push_len _ _ _ _ Hq2), (push_len _ _ _ _ Hq1), Hr. reflexivity.
    + exfalso. unfold add_contact in E. repeat match type of E with context [match ?x with _ => _ end] => destruct x end; discriminate.
  - unfold upd_contact_weights in Ha. destruct (f_hqp s) as [|l0 ls] eqn:Eh; [simpl in Ha; injection Ha as <-; rewrite Eh; reflexivity|].
    destruct (upd_cw_levels _ _ _ _ _ _ _) as [ls' b] eqn:E; simpl in Ha; injection Ha as <-.
    cbn [f_hqp w_hqp]. simpl. rewrite (upd_cw_len _ _ _ _ _ _ _ _ _ E). reflexivity.
  - simpl in Ha; injection Ha as <-; reflexivity.
  - unfold remove_task in Ha. assert (L := erase_hqp_len s name).
    destruct (erase_hqp s name) as [s1 b]. simpl fst in L.
    destruct (assert_ dbg b); [|discriminate].
    destruct (take_task name (f_motions s1)) as [[tk r]|].
    { destruct (tl_prio tk =? 0); [destruct (tl_rows s1 tk) as [[kd m]|]; [destruct kd|]|];
      simpl in Ha; try discriminate; injection Ha as <-; exact L. }
    destruct (take_task name (f_forces s1)) as [[tk r]|]; [simpl in Ha; injection Ha as <-; exact L|].
    destruct (take_task name (f_acts s1)) as [[tk r]|].
    { destruct (tl_prio tk =? 0); [destruct (tl_rows s1 tk) as [[kd m]|]; [destruct kd|]|];
      simpl in Ha; try discriminate; injection Ha as <-; exact L. }
    simpl in Ha; injection Ha as <-; exact L.
  - unfold remove_contact in Ha. destruct ((n0 <? dur)%num).
    + destruct (find_contact s name); [|simpl in Ha; injection Ha as <-; reflexivity].
      destruct (cobj_at s _); [|discriminate]. simpl in Ha; injection Ha as <-; reflexivity.
    + destruct (remove_contact_now dbg s name) as [s1 b1|s1|] eqn:E; [| |discriminate].
      * simpl in Ha; injection Ha as <-. eapply remove_now_len; exact E.
      * exfalso. eapply remove_now_exc; exact E.
  - unfold remove_meas in Ha. destruct (take_meas name (f_meas s)); simpl in Ha; injection Ha as <-; reflexivity.
  - unfold compute in Ha. change (f_trans (w_t s t)) with (f_trans s) in Ha.
    assert (T : forall s1, after (run_transitions dbg (w_t s t) [] (f_trans s)) = Some s1 -> levels s1 = levels s).
    { intros s1 E. eapply (run_transitions_inv dbg (fun q => levels q = levels s)); [| | | |reflexivity|exact E]; auto.
      - intros q q' Sm Hq. rewrite (sm_hqp _ _ Sm). exact Hq.
      - intros q n q' b Hq Hr. rewrite (remove_now_len _ _ _ _ Hr). exact Hq. }
    destruct (run_transitions dbg (w_t s t) [] (f_trans s)) as [s1 u|s1|] eqn:E; [| |discriminate].
    + destruct (comp_fill s1 e) as [s2|] eqn:C; [|discriminate]. simpl in Ha; injection Ha as <-.
      rewrite (sm_hqp _ _ (comp_fill_same _ _ _ C)). apply T; reflexivity.
    + simpl in Ha; injection Ha as <-. apply T; reflexivity.
  - unfold get in Ha. destruct (decode s x) as [s1|] eqn:E; [|discriminate].
    assert (F := sm_hqp _ _ (decode_same _ _ _ E)).
    destruct g; simpl in Ha; try (injection Ha as <-; rewrite F; reflexivity).
    destruct (find_contact s1 name) as [cl|]; [destruct (vsegment _ _ _)|]; simpl in Ha; try discriminate;
      injection Ha as <-; rewrite F; reflexivity.
Qed.

Theorem two_levels P nv na (M0 : mat K) H0 s : reach step P (init nv na M0 H0) s -> levels s = 2.
Proof.
  apply (reach_inv step P (fun q => levels q = 2)); [reflexivity|]. intros q o q' H2 _ Ha. rewrite (levels_step q o q' Ha). exact H2.
Qed.

End Levels.
