(** The weights in the HQP data are not negative as long as the calls that do not check their
    weights are given non-negative ones. *)
From Coq Require Import String List Arith Bool ZArith Lia Reals Lra.
From Verif Require Import Scalar Outcome Linalg Constraint Formulation ListUtil FormSpec FormInv FormInvB FormInvC FormOps FormSafe FormSafe2 FormLevels Doubles DoubleMasks.
Import ListNotations.
Open Scope string_scope.
Open Scope list_scope.
Open Scope nat_scope.

(** * Specification *)
(** addRigidContact and updateTaskWeight accept any weight; addMotionTask, addForceTask,
    addActuationTask and updateRigidContactWeights reject or ignore the negative ones. *)
Definition weights_given {K : num} (o : fop K) : Prop :=
  match o with
  | OAddContact _ wreg wmot _ => (n0 <=? wreg)%num = true /\ (n0 <=? wmot)%num = true
  | OUpdTask _ w => (n0 <=? w)%num = true
  | _ => True
  end.

(** * Proofs *)
Section Weights.
Context {K : num}.
Variable dbg : bool.
Hypothesis one : ((n0 : K) <=? n1)%num = true.
Implicit Types (s : fstate K).
Local Notation step := (@Formulation.step K dbg).
Definition pos1 (l : list (K * nat)) : Prop := Forall (fun en => (n0 <=? fst en)%num = true) l.
Definition pos s : Prop := Forall pos1 (f_hqp s).

Lemma lupd_forall {A} (P : A -> Prop) l i x : Forall P l -> P x -> Forall P (lupd l i x).
Proof. revert i. induction l as [|a l IH]; intros i F Hx; destruct i; simpl; auto; inversion F; constructor; auto. Qed.
Lemma push_pos q l en q' : Forall pos1 q -> (n0 <=? fst en)%num = true -> push_level q l en = Some q' -> Forall pos1 q'.
Proof.
  unfold push_level. intros F He X. destruct (nth_error q l) as [x|] eqn:E; [|discriminate]. simpl in X. injection X as <-. apply lupd_forall; [exact F|].
  apply Forall_app. split; [|constructor; auto]. rewrite Forall_forall in F. apply F. eapply nth_error_In, E.
Qed.
Lemma erase_level_pos h n l : forall l', pos1 l -> erase_level (K:=K) h n l = Some l' -> pos1 l'.
Proof.
  induction l as [|e l IH]; simpl; intros l' F X; [discriminate|]. inversion F; subst. destruct (String.eqb _ _); [injection X as <-; assumption|].
  destruct (erase_level h n l); [|discriminate]. injection X as <-. constructor; [assumption|]. apply IH; auto.
Qed.
Lemma erase_levels_pos h n ls : forall ls', Forall pos1 ls -> erase_levels (K:=K) h n ls = Some ls' -> Forall pos1 ls'.
Proof.
  induction ls as [|l ls IH]; simpl; intros ls' F X; [discriminate|]. inversion F; subst.
  destruct (erase_level h n l) eqn:E; [injection X as <-; constructor; auto; eapply erase_level_pos; eassumption|].
  destruct (erase_levels h n ls); [|discriminate]. injection X as <-. constructor; auto.
Qed.
Lemma erase_pos s n : pos s -> pos (fst (erase_hqp s n)).
Proof. unfold erase_hqp. intros F. destruct (erase_levels (f_heap s) n (f_hqp s)) eqn:E; [exact (erase_levels_pos _ _ _ _ F E)|exact F]. Qed.
Lemma upd_level_pos h n w l : (n0 <=? w)%num = true -> forall l', pos1 l -> upd_weight_level (K:=K) h n w l = Some l' -> pos1 l'.
Proof.
  intros Hw. induction l as [|e l IH]; simpl; intros l' F X; [discriminate|]. inversion F; subst. destruct (String.eqb _ _); [injection X as <-; constructor; auto|].
  destruct (upd_weight_level h n w l); [|discriminate]. injection X as <-. constructor; [assumption|]. apply IH; auto.
Qed.
Lemma upd_levels_pos h n w ls : (n0 <=? w)%num = true -> forall ls', Forall pos1 ls -> upd_weight_levels (K:=K) h n w ls = Some ls' -> Forall pos1 ls'.
Proof.
  intros Hw. induction ls as [|l ls IH]; simpl; intros ls' F X; [discriminate|]. inversion F; subst.
  destruct (upd_weight_level h n w l) eqn:E; [injection X as <-; constructor; auto; eapply upd_level_pos; eassumption|].
  destruct (upd_weight_levels h n w ls); [|discriminate]. injection X as <-. constructor; auto.
Qed.
Lemma cw_level_pos h n wf wm l : forall ff mf l' o, pos1 l -> upd_cw_level (K:=K) h n wf wm l ff mf = (l', o) -> pos1 l'.
Proof.
  induction l as [|e l IH]; simpl; intros ff mf l' o F X; [injection X as <- _; constructor|]. inversion F; subst.
  destruct (String.eqb _ _).
  - assert (Q : (n0 <=? fst (if (n0 <=? wf)%num then (wf, snd e) else e))%num = true) by (destruct (n0 <=? wf)%num eqn:E; assumption).
    destruct (_ || _); [injection X as <- _; constructor; auto|]. destruct (upd_cw_level h n wf wm l true mf) as [r o'] eqn:E. injection X as <- _. constructor; auto. eapply IH; eassumption.
  - destruct (String.eqb _ _).
    + assert (Q : (n0 <=? fst (if (n0 <=? wm)%num then (wm, snd e) else e))%num = true) by (destruct (n0 <=? wm)%num eqn:E; assumption).
      destruct ff; [injection X as <- _; constructor; auto|]. destruct (upd_cw_level h n wf wm l false true) as [r o'] eqn:E. injection X as <- _. constructor; auto. eapply IH; eassumption.
    + destruct (upd_cw_level h n wf wm l ff mf) as [r o'] eqn:E. injection X as <- _. constructor; auto. eapply IH; eassumption.
Qed.
Lemma cw_levels_pos h n wf wm ls : forall ff mf ls' b, Forall pos1 ls -> upd_cw_levels (K:=K) h n wf wm ls ff mf = (ls', b) -> Forall pos1 ls'.
Proof.
  induction ls as [|l ls IH]; simpl; intros ff mf ls' b F X; [injection X as <- _; constructor|]. inversion F; subst.
  destruct (upd_cw_level h n wf wm l ff mf) as [l1 [[f1 m1]|u]] eqn:E0; apply cw_level_pos in E0; auto.
  - destruct (upd_cw_levels h n wf wm ls f1 m1) as [r b'] eqn:E. injection X as <- _. constructor; auto. eapply IH; eassumption.
  - injection X as <- _. constructor; auto.
Qed.
Lemma remove_now_pos s n s' b : pos s -> remove_contact_now dbg s n = Ret s' b -> pos s'.
Proof.
  intros F X. apply remove_contact_now_spec in X. cbv zeta in X.
  assert (L3 : pos (erase3 s n)) by (unfold erase3; auto using erase_pos).
  destruct X as [(_ & _ & ->)|(c & r & s4 & mr & fr & _ & _ & _ & Hr & ->)]; [exact L3|].
  apply resize_len in Hr. unfold pos. cbn [f_hqp w_contacts]. rewrite Hr. exact L3.
Qed.
Lemma add_task_pos s n kd r w lvl s1 a : pos s -> (n0 <=? w)%num = true -> add_task_cstr s n kd r w lvl = Some (s1, a) -> pos s1.
Proof.
  intros F Hw E. apply add_task_stored in E. destruct E as (_ & x & Hx & -> & _). unfold pos. cbn [f_hqp w_hqp]. apply lupd_forall; [exact F|].
  apply Forall_app. split; [|constructor; auto]. unfold pos in F. rewrite Forall_forall in F. apply F. eapply nth_error_In, Hx.
Qed.
Lemma args_weight w dur : args_ok (K:=K) w dur = true -> (n0 <=? w)%num = true.
Proof. intros H. apply andb_true_iff in H. apply H. Qed.

Theorem pos_step s o s' : weights_given o -> pos s -> after (step s o) = Some s' -> pos s'.
Proof.
  intros Hw F Ha. destruct o; cbn [step Formulation.step] in Ha; try rewrite lift_after in Ha.
  - simpl in Ha. injection Ha as <-. exact F.
  - unfold obj_set_fmin in Ha. destruct (cobj_at s o); [|discriminate]. destruct (_ || _); simpl in Ha; injection Ha as <-; exact F.
  - unfold obj_set_fmax in Ha. destruct (cobj_at s o); [|discriminate]. destruct (_ || _); simpl in Ha; injection Ha as <-; exact F.
  - unfold add_motion in Ha. destruct (args_ok w dur) eqn:Ar; [|simpl in Ha; injection Ha as <-; exact F].
    destruct (add_task_cstr _ _ _ _ _ _) as [[s1 a]|] eqn:E; [|discriminate]. simpl in Ha; injection Ha as <-. exact (add_task_pos _ _ _ _ _ _ _ _ F (args_weight _ _ Ar) E).
  - unfold add_force in Ha. destruct (args_ok w dur) eqn:Ar; [|simpl in Ha; injection Ha as <-; exact F].
    destruct (add_task_cstr _ _ _ _ _ _) as [[s1 a]|] eqn:E; [|discriminate]. simpl in Ha; injection Ha as <-. exact (add_task_pos _ _ _ _ _ _ _ _ F (args_weight _ _ Ar) E).
  - unfold add_act in Ha. destruct (args_ok w dur) eqn:Ar; [|simpl in Ha; injection Ha as <-; exact F].
    destruct (add_task_cstr _ _ _ _ _ _) as [[s1 a]|] eqn:E; [|discriminate]. simpl in Ha; injection Ha as <-. exact (add_task_pos _ _ _ _ _ _ _ _ F (args_weight _ _ Ar) E).
  - unfold upd_task_weight in Ha. unfold pos in F. destruct (f_hqp s) as [|l0 ls] eqn:Eh; [simpl in Ha; injection Ha as <-; unfold pos; rewrite Eh; exact F|].
    destruct (upd_weight_levels _ _ _ _) eqn:E; simpl in Ha; injection Ha as <-; [|unfold pos; rewrite Eh; exact F].
    unfold pos. cbn [f_hqp w_hqp]. inversion F; subst. constructor; auto. eapply upd_levels_pos; eassumption.
  - destruct (add_contact s o wreg wmot lvl) as [s1 b1|s1|] eqn:E; [| |discriminate].
    + simpl in Ha; injection Ha as <-. destruct Hw as [Hw1 Hw2].
      apply add_contact_spec in E. destruct E as (_ & x' & s2 & q1 & q2 & q3 & Hx & Hr & H).
      cbv zeta in H. apply resize_len in Hr. destruct H as (Hq1 & Hq2 & Hq3 & ->). unfold pos.
      cbn [f_hqp w_hqp w_heap w_contacts w_eq w_in]. eapply push_pos; [| |exact Hq3]; [|exact Hw1]. eapply push_pos; [| |exact Hq2]; [|exact one]. eapply push_pos; [| |exact Hq1]; [|exact Hw2]. rewrite Hr. exact F.
    + exfalso. unfold add_contact in E. repeat match type of E with context [match ?x with _ => _ end] => destruct x end; discriminate.
  - unfold upd_contact_weights in Ha. unfold pos in F. destruct (f_hqp s) as [|l0 ls] eqn:Eh; [simpl in Ha; injection Ha as <-; unfold pos; rewrite Eh; exact F|].
    destruct (upd_cw_levels _ _ _ _ _ _ _) as [ls' b] eqn:E; simpl in Ha; injection Ha as <-.
    unfold pos. cbn [f_hqp w_hqp]. inversion F; subst. constructor; auto. eapply cw_levels_pos; eassumption.
  - simpl in Ha; injection Ha as <-; exact F.
  - unfold remove_task in Ha. assert (L := erase_pos s name F).
    destruct (erase_hqp s name) as [s1 b]. simpl fst in L.
    destruct (assert_ dbg b); [|discriminate].
    destruct (take_task name (f_motions s1)) as [[tk r]|].
    { destruct (tl_prio tk =? 0); [destruct (tl_rows s1 tk) as [[kd m]|]; [destruct kd|]|];
      simpl in Ha; try discriminate; injection Ha as <-; exact L. }
    destruct (take_task name (f_forces s1)) as [[tk r]|]; [simpl in Ha; injection Ha as <-; exact L|].
    destruct (take_task name (f_acts s1)) as [[tk r]|].
    { destruct (tl_prio tk =? 0); [destruct (tl_rows s1 tk) as [[kd m]|]; [destruct kd|]|];
      simpl in Ha; try discriminate; injection Ha as <-; exact L. }
    simpl in Ha; injection Ha as <-; exact L.
  - unfold remove_contact in Ha. destruct ((n0 <? dur)%num).
    + destruct (find_contact s name); [|simpl in Ha; injection Ha as <-; exact F].
      destruct (cobj_at s _); [|discriminate]. simpl in Ha; injection Ha as <-; exact F.
    + destruct (remove_contact_now dbg s name) as [s1 b1|s1|] eqn:E; [| |discriminate].
      * simpl in Ha; injection Ha as <-. eapply remove_now_pos; [exact F|exact E].
      * exfalso. eapply remove_now_exc; exact E.
  - unfold remove_meas in Ha. destruct (take_meas name (f_meas s)); simpl in Ha; injection Ha as <-; exact F.
  - unfold compute in Ha. change (f_trans (w_t s t)) with (f_trans s) in Ha.
    assert (T : forall s1, after (run_transitions dbg (w_t s t) [] (f_trans s)) = Some s1 -> pos s1).
    { intros s1 E. eapply (run_transitions_inv dbg pos); [| | | |reflexivity|exact E]; auto.
      - intros q q' Sm Hq. unfold pos. rewrite (sm_hqp _ _ Sm). exact Hq.
      - intros q n q' b Hq Hr. exact (remove_now_pos _ _ _ _ Hq Hr). }
    destruct (run_transitions dbg (w_t s t) [] (f_trans s)) as [s1 u|s1|] eqn:E; [| |discriminate].
    + destruct (comp_fill s1 e) as [s2|] eqn:C; [|discriminate]. simpl in Ha; injection Ha as <-.
      unfold pos. rewrite (sm_hqp _ _ (comp_fill_same _ _ _ C)). apply T; reflexivity.
    + simpl in Ha; injection Ha as <-. apply T; reflexivity.
  - unfold get in Ha. destruct (decode s x) as [s1|] eqn:E; [|discriminate].
    assert (L : pos s1) by (unfold pos; rewrite (sm_hqp _ _ (decode_same _ _ _ E)); exact F).
    destruct g; simpl in Ha; try (injection Ha as <-; exact L).
    destruct (find_contact s1 name) as [cl|]; [destruct (vsegment _ _ _)|]; simpl in Ha; try discriminate;
      injection Ha as <-; exact L.
Qed.
Theorem weights_pos (P : fstate K -> fop K -> Prop) nv na (M0 : mat K) H0 s : (forall q o, P q o -> weights_given o) -> reach step P (init nv na M0 H0) s ->
  forall l en, In l (hqp s) -> In en l -> (n0 <=? fst en)%num = true.
Proof.
  intros HP R l en Hl Hen. assert (F : pos s).
  { revert R. apply (reach_inv step P pos); [repeat constructor; exact one|]. intros q o q' H2 Hp Ha. exact (pos_step q o q' (HP _ _ Hp) H2 Ha). }
  unfold hqp in Hl. apply in_map_iff in Hl. destruct Hl as (l0 & <- & Hl). apply in_map_iff in Hen. destruct Hen as ([w a] & <- & Hen).
  unfold pos in F. rewrite Forall_forall in F. specialize (F l0 Hl). unfold pos1 in F. rewrite Forall_forall in F. exact (F _ Hen).
Qed.
End Weights.

(** Over the reals: level 1 of the problem has non-negative weights. *)
Theorem weights_ok_calls dbg (P : fstate Rnum -> fop Rnum -> Prop) nv na (M0 : mat Rnum) H0 s : (forall q o, P q o -> weights_given o) -> reach (step dbg) P (init nv na M0 H0) s ->
  forall en, In en (nth 1 (hqp s) []) -> (0 <= fst en)%R.
Proof.
  intros HP R en Hen. assert (L : In (nth 1 (hqp s) []) (hqp s)).
  { apply nth_In. unfold hqp. rewrite map_length. rewrite (two_levels dbg P nv na M0 H0 s R). auto. }
  assert (Q : @nleb Rnum n0 (fst en) = true) by (refine (weights_pos dbg _ P nv na M0 H0 s HP R _ en L Hen); apply Rleb_true; simpl; lra).
  apply Rleb_true in Q. exact Q.
Qed.
Lemma zero_one : @nleb Dnum n0 n1 = true.
Proof. rewrite (d_le n0 n1 eq_refl fin_n1), val_n1. apply Rleb_true. change (val n0) with 0%R. lra. Qed.
(** In binary64: no weight is negative or NaN. *)
Theorem weights_ok_doubles dbg (P : fstate Dnum -> fop Dnum -> Prop) nv na (M0 : mat Dnum) H0 s : (forall q o, P q o -> weights_given o) -> reach (step dbg) P (init nv na M0 H0) s ->
  forall l en, In l (hqp s) -> In en l -> @nleb Dnum n0 (fst en) = true.
Proof. intros HP R. apply (weights_pos dbg zero_one P nv na M0 H0 s HP R). Qed.
