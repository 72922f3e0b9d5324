(** Forces that contacts admit, and a formulation that cannot be solved because its contact is hard
    (C110). *)
From Coq Require Import String List Arith Bool ZArith QArith Lia Reals Lra.
From Verif Require Import Scalar Outcome Linalg Constraint Formulation ListUtil FormSpec FormDataSpec FormPhysSpec RSum FormMain FormCheck FormWitness SoftTasks SoftPlan SoftOrder SoftOrderR SoftContacts SoftCalls.
From Verif Require Import Contacts ContactSpec ContactProofs ContactReal.
From Verif Require RobotModelR.
Import ListNotations.
Open Scope string_scope.
Open Scope list_scope.
Open Scope nat_scope.
Local Notation rsum := (@nsum Rnum).

(** * Contacts that admit a force *)
(** A contact with a non-degenerate normal and bounds that leave room for a force that pushes. *)
Theorem pyramid_force k dbg name (s : rcont) : k <> K2 -> made rsq k dbg name s -> (/ 10 ^ 10 <= dot (vget (k_n s)) (vget (k_n s)))%R ->
  (0 < k_mu s)%R -> (2 * k_mu s * k_fmax s <= big)%R -> (k_fmin s <= k_fmax s)%R -> (0 <= k_fmax s)%R -> exists f, sat (k_ineq s) f.
Proof.
  intros Hk Hm Hn Hmu Hb Hf H0. destruct (contact_meaning k dbg name s Hk Hm Hn) as (t1 & t2 & (_ & _ & _ & N1 & N2) & G).
  set (n := vget (k_n s)) in *. assert (P : (0 < dot n n)%R) by (eapply Rlt_le_trans; [|exact Hn]; apply Rinv_0_lt_compat; apply pow_lt; lra).
  set (w := Rmax (k_fmin s) 0). set (f := fun j => if j <? 3 then (w / dot n n * n j)%R else 0%R).
  assert (W : (0 <= w)%R /\ (k_fmin s <= w <= k_fmax s)%R).
  { unfold w. split; [apply Rmax_r|]. split; [apply Rmax_l|]. apply Rmax_lub; assumption. }
  assert (D0 : forall u, dot u (at_point f 0) = (w / dot n n * dot u n)%R) by (intros u; unfold dot at 1 3, at_point, f; cbn; ring).
  assert (Di : forall u i, 0 < i -> dot u (at_point f i) = 0%R).
  { intros u i Hi. unfold dot, at_point, f. replace (3 * i + 0 <? 3) with false by (symmetry; apply Nat.ltb_ge; lia).
    replace (3 * i + 1 <? 3) with false by (symmetry; apply Nat.ltb_ge; lia). replace (3 * i + 2 <? 3) with false by (symmetry; apply Nat.ltb_ge; lia). ring. }
  assert (C : forall u v, dot u v = dot v u) by (intros u v; unfold dot; ring).
  exists f. apply G; [exact Hmu|exact Hb|]. split.
  - intros i _. destruct i as [|i].
    + split; rewrite !D0, ?(C t1 n), ?(C t2 n), ?N1, ?N2, Rmult_0_r, Rabs_R0; (apply Rmult_le_pos; [lra|]; unfold Rdiv; rewrite Rmult_assoc, Rinv_l by lra; lra).
    + split; rewrite !Di by lia; rewrite Rabs_R0; lra.
  - assert (E : total_normal (npts k) n f = w).
    { unfold total_normal. assert (N : exists m, npts k = S m) by (destruct k; [exists 3|exists 0|congruence]; reflexivity). destruct N as (m & ->).
      rewrite (rsum_single (S m) 0); [rewrite D0; field; lra|lia|]. intros i _ Hi. apply Di. lia. }
    rewrite E. apply W.
Qed.
(** A two-frame contact whose bounds are in order. *)
Theorem box_force dbg name (s : rcont) : made rsq K2 dbg name s -> (k_fmin s <= k_fmax s)%R -> exists f, sat (k_ineq s) f.
Proof. intros Hm Hf. exists (fun _ => k_fmin s). apply (two_frame_box dbg name s Hm). intros j _. lra. Qed.

(** * A formulation that is soft except for its contact *)
(** The foot is asked to accelerate its second direction by 3000: the joint needs a torque of at
    least 2002 for that and has 50. *)
Definition env3 : env Rnum :=
  mkEnv (e_mass env2) (e_nle env2) (fun o => if o =? 0 then (mident 2 3, @mkVec Rnum 2 (fun i => if i =? 1 then 3000%R else 0%R)) else e_cmotion env2 o)
    (e_gen env2) (e_cforce env2) (e_creg env2) (e_task env2) (e_assoc env2) (e_meas env2).
Definition scene3 (lvl : nat) : list (fop Rnum) :=
  [ONewContact foot; OAddContact 0 n1 n1 lvl; OAddMotion 0 "com" CEq 1 n1 1 n0; OAddAct 2 "tau" CBound 2 n1 0 n0].
Local Notation ask := (Formulation.OCompute (@t0 Rnum) env3).
Lemma env3_uniform : uniform env3. Proof. exact (@one_env_uniform Rnum). Qed.
Lemma okrun_soft dbg asc ops : forall s0 s s', Forall (fun o => uniform_op o /\ assoc_fixed asc o /\ soft_call o /\ forall s, step dbg s o = plain_step dbg s o) ops ->
  reach (step dbg) (soft_use dbg asc) s0 s -> okrun dbg (plain_step dbg) s ops = Some s' -> reach (step dbg) (soft_use dbg asc) s0 s'.
Proof.
  induction ops as [|o ops IH]; simpl; intros s0 s s' F Hr H; [injection H as <-; exact Hr|].
  inversion F as [|? ? (U & As & So & Es) F']; subst.
  destruct (names_okb s o && op_okb dbg s o) eqn:C; [|discriminate]. apply andb_true_iff in C. destruct C as [C1 C2].
  destruct (after (plain_step dbg s o)) as [s1|] eqn:E; [|discriminate]. apply (IH s0 s1); [exact F'| |exact H].
  eapply reach_step; [exact Hr| |rewrite Es; exact E].
  split; [split; [split; [apply names_okb_ok; exact C1|apply op_okb_ok; assumption]|exact As]|exact So].
Qed.
Lemma run3 dbg lvl : In lvl [0; 1] -> some (okrun dbg (plain_step dbg) (@s0 Rnum) (scene3 lvl)) = true /\
  names_okb (built dbg (scene3 lvl)) ask && op_okb dbg (built dbg (scene3 lvl)) ask = true /\ ret_unit (step dbg (built dbg (scene3 lvl)) ask) = true.
Proof. intros [<-|[<-|[]]]; destruct dbg; vm_compute; auto. Qed.
Lemma ask3 dbg lvl : In lvl [0; 1] -> reach (step dbg) (assoc_good dbg asc) (@s0 Rnum) (built dbg (scene3 lvl)) /\ assoc_good dbg asc (built dbg (scene3 lvl)) ask /\
  step dbg (built dbg (scene3 lvl)) ask = Ret (go env3 dbg (scene3 lvl)) OutUnit.
Proof.
  assert (A := args_pass R_checks). intros Hl. destruct (run3 dbg lvl Hl) as (H1 & H2 & H3). split; [|split].
  - eapply okrun_reach; [|constructor|apply built_ok; exact H1].
    assert (F : Forall (fun o => uniform_op o /\ assoc_fixed asc o /\ plain o) (scene3 lvl)) by (repeat constructor; simpl; auto).
    eapply Forall_impl; [|exact F]. intros o (U1 & U2 & U3). split; [exact U1|]. split; [exact U2|]. intros s'. apply plain_step_ok; exact U3.
  - apply andb_true_iff in H2. destruct H2 as [H2 H2']. split; [split|].
    + apply names_okb_ok; exact H2.
    + apply op_okb_ok; [apply env3_uniform|exact H2'].
    + intros id; reflexivity.
  - unfold go, end_of. destruct (step dbg (built dbg (scene3 lvl)) _) as [s' r| |]; try discriminate. destruct r; try discriminate. reflexivity.
Qed.
Lemma soft3 dbg : reach (step dbg) (soft_use dbg asc) (@s0 Rnum) (built dbg (scene3 1)).
Proof.
  assert (A := args_pass R_checks). destruct (run3 dbg 1) as (H1 & _ & _); [simpl; auto|].
  eapply okrun_soft; [|constructor|apply built_ok; exact H1].
  assert (F : Forall (fun o => uniform_op o /\ assoc_fixed asc o /\ soft_call o /\ plain o) (scene3 1)) by (repeat constructor; simpl; auto; lra).
  eapply Forall_impl; [|exact F]. intros o (U1 & U2 & U3 & U4). split; [exact U1|]. split; [exact U2|]. split; [exact U3|]. intros s'. apply plain_step_ok; exact U4.
Qed.
Definition in_3 (s : fstate Rnum) (lvl : nat) : Prop :=
  f_nv s = 3 /\ f_nu s = 1 /\ f_contacts s = [mkCl 0 0 1 2 3] /\ f_objs s = [foot] /\ f_meas s = [] /\ f_acts s = [mkTl 2 "tau" 0 5] /\
  (lvl = 0 -> map (fun en => @entry_name Rnum en) (nth 0 (hqp s) []) = [Some "base-dynamics"; Some "foot_motion_task"; Some "foot_force_constraint"; Some "tau"]).
Lemma lists_3 dbg lvl : In lvl [0; 1] -> in_3 (go env3 dbg (scene3 lvl)) lvl.
Proof. intros [<-|[<-|[]]]; unfold in_3; destruct dbg; repeat split; vm_compute; first [reflexivity|discriminate]. Qed.
Lemma torque_3 s lvl x : in_3 s lvl -> needed_torque s env3 x 1 = (x 1%nat + 2 - x 4%nat)%R.
Proof.
  intros (E1 & E2 & E4 & E5 & E6 & _). unfold needed_torque, meas_torque, contact_torque. rewrite E1, E4, E6. unfold lsum, cl_nforce, cobj_at. rewrite E5. unfold force_of. rewrite E1.
  cbn. rewrite ?Q2R_val. cbn. lra.
Qed.
Lemma mass_3 : RobotModelR.posdef 3 (mget (e_mass env3)).
Proof.
  intros x (i & Hi & Hx). unfold RobotModelR.qform. rewrite !rsum_S, !rsum_0. cbn.
  assert (0 < x i * x i)%R by (apply Rsqr_pos_lt; exact Hx). assert (A0 := Rle_0_sqr (x 0)). assert (A1 := Rle_0_sqr (x 1)). assert (A2 := Rle_0_sqr (x 2)). unfold Rsqr in *.
  destruct i as [|[|[|i]]]; [| | |lia]; lra.
Qed.
Lemma forces_3 s lvl : in_3 s lvl -> forces_exist s env3.
Proof.
  intros (E1 & E2 & E4 & E5 & _) c o Hc Ho. rewrite E4 in Hc. destruct Hc as [<-|[]]. rewrite E5 in Ho. cbn in Ho. injection Ho as <-.
  cbn [cl_obj e_cforce env3 env2 one_env Nat.eqb]. exists (fun i => match i with 0%nat => 5%R | _ => 0%R end). intros i Hi. cbn in Hi.
  destruct i as [|[|[|i]]]; [| | |lia]; cbn; rewrite ?Q2R_val; cbn; lra.
Qed.
Lemma torques_3 s lvl : in_3 s lvl -> torque_exists s env3 (fun _ => 7%R).
Proof.
  intros (_ & _ & _ & _ & _ & E & _) t Ht _. rewrite E in Ht. destruct Ht as [<-|[]]. unfold sat, lhs. cbn [env3 env2 one_env e_task tl_task Nat.eqb c_kind c_lb c_ub vlen vget].
  intros i Hi. cbn. rewrite !Q2R_val. cbn. lra.
Qed.
(** With the contact at level 0 nothing respects the hard constraints. *)
Lemma hard_3 s x : in_3 s 0 -> ~ physical s env3 x.
Proof.
  intros I P. assert (T := torque_3 s 0 x I). destruct I as (E1 & E2 & E4 & E5 & E6 & E9 & E10). specialize (E10 eq_refl).
  assert (Hm : hard_motion s (mkCl 0 0 1 2 3)). { eapply hard_in; [exact E10|]. unfold cl_name, cobj_at. rewrite E5. cbn. auto. }
  assert (Q := ph_motion _ _ _ P (mkCl 0 0 1 2 3)). rewrite E4 in Q. specialize (Q (or_introl eq_refl) Hm 1 ltac:(cbn; lia)). cbn in Q.
  assert (A := ph_atask _ _ _ P (mkTl 2 "tau" 0 5)). rewrite E9 in A. specialize (A (or_introl eq_refl) eq_refl). unfold sat in A. cbn [env3 env2 one_env e_task tl_task Nat.eqb c_kind c_lb vlen] in A.
  specialize (A 0 ltac:(lia)). unfold lhs in A. cbn [c_kind c_ub vget] in A. rewrite E2 in A. change (1 + 0) with 1 in A. rewrite T in A. unfold FormWitness.q in A. cbn in A. rewrite !Q2R_val in A. cbn in A.
  assert (F := ph_force _ _ _ P (mkCl 0 0 1 2 3) foot). rewrite E4, E5 in F. specialize (F (or_introl eq_refl) eq_refl). cbn [cl_obj e_cforce env3 env2 one_env Nat.eqb] in F.
  assert (F0 := F 0 ltac:(cbn; lia)). assert (F1 := F 1 ltac:(cbn; lia)). assert (F2 := F 2 ltac:(cbn; lia)).
  unfold force_of in F0, F1, F2. rewrite E1 in F0, F1, F2. cbn in F0, F1, F2. rewrite ?Q2R_val in F0, F1, F2. cbn in F0, F1, F2. rewrite ?Q2R_val in F1. cbn in F1. lra.
Qed.
(** The calls of the hard scene: only the contact is not soft. *)
Definition but_contact (o : fop Rnum) : Prop := match o with OAddContact _ wr wm _ => (0 <= wr)%R /\ (0 <= wm)%R | _ => soft_call o end.
Lemma calls_3 dbg : run (step dbg) (@s0 Rnum) (scene3 0) = Some (built dbg (scene3 0)) /\ Forall but_contact (scene3 0).
Proof.
  assert (A := args_pass R_checks). split.
  - destruct (run3 dbg 0) as (H & _); [left; reflexivity|]. apply built_ok in H. revert H. generalize (built dbg (scene3 0)).
    assert (F : Forall (@plain Rnum) (scene3 0)) by (repeat constructor; simpl; auto). revert F. generalize (scene3 0) as l. generalize (@s0 Rnum) as s.
    intros s l; revert s. induction l as [|o l IH]; intros s F s' H; cbn [okrun run] in *; [exact H|]. inversion F as [|? ? Po F']; subst.
    destruct (names_okb s o && op_okb dbg s o); [|discriminate H]. rewrite (plain_step_ok dbg s o Po). destruct (after (plain_step dbg s o)) as [s1|]; [|discriminate H].
    exact (IH s1 F' s' H).
  - repeat constructor; simpl; auto; lra.
Qed.
