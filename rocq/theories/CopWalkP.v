(** The weights of the tasks of the exercise biped changed while it runs, and the loop of
    exercizes/test_cop_task.py. *)
From Coq Require Import String List Arith Bool ZArith Lia Permutation Reals Lra.
From Verif Require Import Scalar Outcome Linalg Constraint Formulation ListUtil FormSpec FormDataSpec FormPhysSpec RSum FormInv FormInvB FormInvC FormOps FormSafe FormSafe2 FormContact FormHist FormDecode FormPhys FormMain FormSolver FormCheck SoftTasks SoftPlan SoftOrderR Walking WalkingSpec WalkingP WalkingQ BipedBook BipedPlan BipedBest BipedSizes CopWalk.
Import ListNotations.
Open Scope string_scope.
Open Scope list_scope.
Open Scope nat_scope.

(** * Specification *)
(** The weight given last to the task [n]; [d] before. *)
Definition latest (n : string) (l : list (call Rnum)) (d : R) : R :=
  fold_left (fun (d : R) (c : call Rnum) => match c with Weigh m w => if String.eqb m n then w else d | Do _ => d end) l d.
(** The configuration with these weights. *)
Definition weights (C : conf Rnum) (l : list (call Rnum)) : conf Rnum :=
  @mkConf Rnum (latest "task-com" l (w_com C)) (latest "task-cop" l (w_cop C)) (latest "task-am" l (w_am C)) (w_foot C) (w_contact C)
    (latest "task-posture" l (w_posture C)) (w_forceRef C) (w_torque_bounds C) (w_joint_bounds C) (n_posture C).
(** Soft tasks, and tasks that are never soft. *)
Definition soft_names : list string := ["task-com"; "task-cop"; "task-am"; "task-posture"].
Definition hard_names : list string := ["task-actuation-bounds"; "task-joint-bounds"].
(** Rules of use: those of C106, and weights are not negative. *)
Definition fair (C : conf Rnum) (nv na : nat) (b : biped Rnum) (c : call Rnum) : Prop :=
  match c with Do o => used C nv na b o | Weigh n w => In n (soft_names ++ hard_names) /\ (0 <= w)%R end.
(** Calls that return one after the other under a rule. *)
Inductive ran (P : biped Rnum -> call Rnum -> Prop) (dbg : bool) (C : conf Rnum) (b0 : biped Rnum) : list (call Rnum) -> biped Rnum -> Prop :=
| ran_nil : ran P dbg C b0 [] b0
| ran_snoc l b c b' r : ran P dbg C b0 l b -> P b c -> cstep dbg C b c = Ret b' r -> ran P dbg C b0 (l ++ [c]) b'.
(** What updateTaskWeight answers. *)
Definition answer_ok (c : call Rnum) (r : fout Rnum) : Prop :=
  match c with Weigh n _ => r = OutBool (existsb (String.eqb n) soft_names) | Do _ => True end.
(** Rules on the data alone: sizes as in C106. *)
Definition fed (C : conf Rnum) (nv na : nat) (b : biped Rnum) (c : call Rnum) : Prop :=
  match c with
  | Do (Compute _ e) => sized C nv na (objs (b_rf b) (b_lf b)) e /\ whole e
  | Do (Get g x) => data_rule b (Get g x)
  | _ => True
  end.
(** Feet on the ground in iteration [i] of the loop. *)
Definition cop_support (N : nat) (ph : nat -> phase) (i : Z) : bool * bool :=
  if ((i <? 0) || (Z.of_nat N <=? i))%Z then (true, true)
  else match ph (Nat.min (Z.to_nat i) (N - 2)) with PRight => (true, false) | PLeft => (false, true) end.
(** Weights in iteration [i]. *)
Definition cop_conf (C : conf Rnum) (w : R) (i : Z) : conf Rnum :=
  if (i <? 0)%Z then C
  else @mkConf Rnum (w_com C) w (w_am C) (w_foot C) (w_contact C) (w_posture C) (w_forceRef C) (w_torque_bounds C) (w_joint_bounds C) (n_posture C).
(** Data of the loop from iteration [i] on: of the right sizes for the feet on the ground. *)
Fixpoint supplied (C : conf Rnum) (nv na N : nat) (ph : nat -> phase) (i : Z) (l : list (Rnum * env Rnum * list (getter * vec Rnum))) : Prop :=
  match l with
  | [] => True
  | (_, e, g) :: l' => let on := objs (fst (cop_support N ph i)) (snd (cop_support N ph i)) in
      (sized C nv na on e /\ whole e /\ Forall (fun p : getter * vec Rnum => vlen (snd p) = nv + 12 * List.length on) g) /\ supplied C nv na N ph (i + 1) l'
  end.

(** * Proofs *)
Definition reweigh (C : conf Rnum) (n : string) (w : R) : conf Rnum :=
  let pick m d : R := if String.eqb n m then w else d in
  @mkConf Rnum (pick "task-com" (w_com C)) (pick "task-cop" (w_cop C)) (pick "task-am" (w_am C)) (w_foot C) (w_contact C)
    (pick "task-posture" (w_posture C)) (w_forceRef C) (w_torque_bounds C) (w_joint_bounds C) (n_posture C).
Lemma latest_snoc n (l : list (call Rnum)) (c : call Rnum) d : latest n (l ++ [c]) d = match c with Weigh m w => if String.eqb m n then w else latest n l d | Do _ => latest n l d end.
Proof. unfold latest. rewrite fold_left_app. destruct c; reflexivity. Qed.
Lemma weights_nil C : weights C [] = C. Proof. destruct C; reflexivity. Qed.
Lemma weights_do C l o : weights C (l ++ [Do o]) = weights C l.
Proof. unfold weights. rewrite !latest_snoc. reflexivity. Qed.
Lemma weights_weigh C l n w : weights C (l ++ [Weigh n w]) = reweigh (weights C l) n w.
Proof. unfold weights, reweigh. rewrite !latest_snoc. reflexivity. Qed.
Definition nonneg (c : call Rnum) : Prop := match c with Weigh _ w => (0 <= w)%R | Do _ => True end.
Lemma latest_pos n l d : (0 <= d)%R -> Forall nonneg l -> (0 <= latest n l d)%R.
Proof.
  intros Hd. induction l as [|c l IH] using rev_ind; intros H; [exact Hd|]. apply Forall_app in H. destruct H as [H1 H2]. rewrite latest_snoc. inversion H2; subst.
  destruct c; [auto|]. destruct (String.eqb n0 n); auto.
Qed.
Lemma weights_conf_ok C l : conf_ok C -> Forall nonneg l -> conf_ok (weights C l).
Proof.
  intros (Z & C1 & C2 & C3 & C4 & C5 & C6 & C7) F.
  assert (L : forall n (d : Rnum), (n0 <=? d)%num = true -> (n0 <=? (latest n l d : Rnum))%num = true) by (intros n d H; apply Rleb_true; apply latest_pos; [apply Rleb_true in H; exact H|exact F]).
  unfold conf_ok, weights. cbn [w_com w_cop w_am w_posture w_foot w_torque_bounds w_joint_bounds].
  split; [exact Z|]. split; [apply L, C1|]. split; [apply L, C2|]. split; [apply L, C3|]. split; [apply L, C4|]. repeat split; assumption.
Qed.

Section B.
Variables (dbg : bool) (nv na : nat) (M0 : mat Rnum) (H0 : vec Rnum) (fmin fmax : R) (nf nf' : vec Rnum -> R).
Local Notation step := (@Formulation.step Rnum dbg).
Local Notation x := (@Walking.six Rnum "contact_rfoot" fmin fmax nf).
Local Notation y := (@Walking.six Rnum "contact_lfoot" fmin fmax nf').
Hypothesis Hrob : FormMain.robot_ok nv M0 H0.
Local Notation kept C := (kept dbg C nv na M0 H0 fmin fmax nf nf').
Notation item := (Rnum * option (string * ckind * nat))%type.

Definition put (n : string) (w : R) (it : item) : item := if String.eqb (iname it) n then ((w : Rnum), snd it) else it.
Lemma put_soft C n w rf lf : In n (soft_names ++ hard_names) -> map (put n w) (map (@lab Rnum) (soft C (feet rf lf))) = map (@lab Rnum) (soft (reweigh C n w) (feet rf lf)).
Proof.
  intros H. unfold soft, foot_soft, feet, reweigh. cbn [w_contact w_forceRef w_com w_cop w_am w_posture w_foot n_posture].
  destruct ((n0 <=? w_contact C)%num), rf, lf; cbn in H; repeat (destruct H as [<-|H]; [reflexivity|]); contradiction.
Qed.
Lemma soft_nodup C rf lf : NoDup (map iname (map (@lab Rnum) (soft C (feet rf lf)))).
Proof.
  unfold soft, foot_soft, feet. destruct ((n0 <=? w_contact C)%num), rf, lf; cbn; repeat constructor; cbn; intuition discriminate.
Qed.
Lemma put_other n w (q : list item) : Forall (fun it => iname it <> n) q -> map (put n w) q = q.
Proof.
  induction 1 as [|it q H _ IH]; [reflexivity|]. cbn [map]. rewrite IH. unfold put. apply String.eqb_neq in H. rewrite H. reflexivity.
Qed.
Lemma nm_iname (s : fstate Rnum) (a : Rnum * nat) : snd a < List.length (f_heap s) -> iname (fst a, info s (snd a)) = name_at (f_heap s) (snd a).
Proof. intros V. unfold iname. cbn [snd]. destruct (info_valid s (snd a) V) as ([[m kd] r] & Ei). rewrite Ei. cbn. symmetry. exact (info_name _ _ _ _ _ Ei). Qed.

Lemma kept_weigh C b n w : kept C b -> In n (soft_names ++ hard_names) ->
  exists b', cstep dbg C b (Weigh n w) = Ret b' (OutBool (existsb (String.eqb n) soft_names)) /\ kept (reweigh C n w) b' /\ b_rf b' = b_rf b /\ b_lf b' = b_lf b.
Proof.
  intros [(cs & q0 & q1 & D & Pc & P0 & P1) Bk] Hn. destruct (desc_inv dbg whole nv na M0 H0 Hrob _ _ _ _ _ D) as (A & _).
  assert (V := invA_valid _ A). unfold valid in V. rewrite Forall_forall in V.
  assert (It := d_items _ _ _ _ _ _ _ _ _ _ _ D). unfold items in It. destruct (f_hqp (b_f b)) as [|l0 [|l1 [|? ?]]] eqn:Eh; try discriminate. cbn [map] in It. injection It as E0 E1.
  assert (V1 : forall a, In a l1 -> snd a < List.length (f_heap (b_f b))) by (intros a Ha; apply V; cbn; rewrite app_nil_r; apply in_or_app; right; exact Ha).
  assert (Nm : map iname q1 = map (fun a => name_at (f_heap (b_f b)) (snd a)) l1) by (rewrite <- E1, map_map; apply map_ext_in; intros a Ha; apply nm_iname, V1, Ha).
  assert (Pn : Permutation (map iname q1) (map iname (map (@lab Rnum) (soft C (feet (b_rf b) (b_lf b)))))) by (apply Permutation_map; exact P1).
  assert (Nd : NoDup (map iname q1)) by (eapply Permutation_NoDup; [apply Permutation_sym; exact Pn|apply soft_nodup]).
  assert (Key : forall s' r, step (b_f b) (OUpdTask n w) = Ret s' r -> f_objs s' = f_objs (b_f b) -> f_trans s' = f_trans (b_f b) -> contact_objs s' = contact_objs (b_f b) -> book s' = book (b_f b) -> items s' = [q0; map (put n w) q1] ->
    kept (reweigh C n w) (mkBiped s' (b_rf b) (b_lf b))).
  { intros s' r Es F1 F2 F3 F4 F5. split; [|cbn [b_f]; rewrite F4, Bk; reflexivity].
    exists cs, q0, (map (put n w) q1). split; [|split; [exact Pc|split]].
    - eapply desc_step; [exact D| |exact Es|..].
      + split; [split; exact I|split; exact I].
      + etransitivity; [exact F1|exact (d_objs _ _ _ _ _ _ _ _ _ _ _ D)].
      + etransitivity; [exact F2|exact (d_trans _ _ _ _ _ _ _ _ _ _ _ D)].
      + etransitivity; [exact F3|exact (d_cs _ _ _ _ _ _ _ _ _ _ _ D)].
      + exact F5.
    - exact P0.
    - rewrite <- put_soft by exact Hn. apply Permutation_map. exact P1. }
  assert (Mem : In n (map iname q1) <-> In n soft_names).
  { split; intros H.
    - apply (Permutation_in _ Pn) in H. apply in_app_iff in Hn. destruct Hn as [Hn|Hn]; [exact Hn|]. exfalso. revert H Hn. clear.
      unfold soft, foot_soft, feet. destruct ((n0 <=? w_contact C)%num), (b_rf b), (b_lf b); cbn; intuition (subst; discriminate).
    - apply (Permutation_in _ (Permutation_sym Pn)). revert H. clear. unfold soft. rewrite !map_app, in_app_iff. intros H. right. cbn in *. intuition. }
  cbn [cstep Formulation.step]. unfold upd_task_weight. rewrite Eh. cbn [upd_weight_levels].
  destruct (upd_weight_level (f_heap (b_f b)) n w l1) as [l1'|] eqn:Eu.
  - destruct (upd_level_first _ _ _ _ _ Eu) as (la & a & lb & -> & -> & Ha & Hf).
    assert (Hs : In n soft_names) by (apply Mem; rewrite Nm, map_app; apply in_or_app; right; left; exact Ha).
    eexists. split; [cbn [onb]; f_equal; f_equal; symmetry; apply existsb_exists; exists n; split; [exact Hs|apply String.eqb_refl]|]. cbn [fst snd b_rf b_lf]. split; [|split; reflexivity].
    eapply Key; [cbn [Formulation.step]; unfold upd_task_weight; rewrite Eh; cbn [upd_weight_levels]; rewrite Eu; reflexivity|reflexivity..|].
    unfold items. cbn [f_hqp w_hqp map]. rewrite <- E0, <- E1. f_equal. f_equal. rewrite !map_app. cbn [map].
    rewrite Nm, map_app in Nd. cbn [map] in Nd. assert (Nd' := NoDup_remove_2 _ _ _ Nd). rewrite Ha in Nd'.
    assert (O : forall l : list (Rnum * nat), (forall c, In c l -> In c (la ++ a :: lb)) -> ~ In n (map (fun a => name_at (f_heap (b_f b)) (snd a)) l) ->
      map (fun e => (fst e, info (b_f b) (snd e))) l = map (put n w) (map (fun e => (fst e, info (b_f b) (snd e))) l)).
    { intros l Sub No. symmetry. apply put_other. apply Forall_forall. intros it Hit. apply in_map_iff in Hit. destruct Hit as (c & <- & Hc). rewrite nm_iname by (apply V1, Sub, Hc).
      intros E. apply No. rewrite <- E. apply in_map_iff. exists c. split; [reflexivity|exact Hc]. }
    f_equal.
    + apply (O la); [intros; apply in_or_app; left; assumption|intros X; apply Nd'; apply in_or_app; left; exact X].
    + f_equal.
      * unfold put. rewrite nm_iname by (apply V1; apply in_or_app; right; left; reflexivity). rewrite Ha, String.eqb_refl. reflexivity.
      * apply (O lb); [intros; apply in_or_app; right; right; assumption|intros X; apply Nd'; apply in_or_app; right; exact X].
  - assert (No := upd_level_none _ _ _ _ Eu).
    assert (Ni : ~ In n (map iname q1)). { rewrite Nm. intros H. apply in_map_iff in H. destruct H as (a & Ea & Ha). rewrite Forall_forall in No. exact (No a Ha Ea). }
    eexists. split; [cbn [onb]; f_equal; f_equal; symmetry; apply not_true_iff_false; intros H; apply existsb_exists in H; destruct H as (m & Hm & He); apply String.eqb_eq in He; subst m; apply Ni, Mem, Hm|].
    cbn [fst snd b_rf b_lf]. split; [|split; reflexivity].
    eapply Key; [cbn [Formulation.step]; unfold upd_task_weight; rewrite Eh; cbn [upd_weight_levels]; rewrite Eu; reflexivity|reflexivity..|].
    rewrite (d_items _ _ _ _ _ _ _ _ _ _ _ D). f_equal. f_equal. symmetry. apply put_other. apply Forall_forall. intros it Hit E. apply Ni. rewrite <- E. apply in_map. exact Hit.
Qed.

(** ** Calls that look at the configuration *)
Lemma bstep_weights C l b o : bstep dbg (weights C l) b o = bstep dbg C b o.
Proof. destruct o; reflexivity. Qed.
Lemma cstep_weights C l b c : cstep dbg (weights C l) b c = cstep dbg C b c.
Proof. destruct c; [apply bstep_weights|reflexivity]. Qed.
Lemma sized_weights C l on e : sized C nv na on e <-> sized (weights C l) nv na on e.
Proof. split; intros Z; destruct Z; constructor; assumption. Qed.
Lemma used_weights C l b o : used C nv na b o -> used (weights C l) nv na b o.
Proof. intros [P1 P2]. split; [exact P1|]. destruct o; try exact P2. destruct P2 as [P2 P3]. split; [|exact P3]. apply sized_weights. exact P2. Qed.

Lemma kept_call C l b c : kept (weights C l) b -> fair C nv na b c ->
  exists b' r, cstep dbg C b c = Ret b' r /\ answer_ok c r /\ kept (weights C (l ++ [c])) b'.
Proof.
  intros Kb Hf. destruct c as [o|n w]; cbn [fair] in Hf.
  - destruct (used_kept dbg (weights C l) nv na M0 H0 fmin fmax nf nf' Hrob b o Kb (used_weights C l b o Hf)) as (b' & r & E & F). exists b', r.
    rewrite bstep_weights in E. rewrite weights_do. split; [exact E|]. split; [exact I|exact F].
  - destruct (kept_weigh (weights C l) b n w Kb (proj1 Hf)) as (b' & E & F & _). exists b'. eexists. split; [exact E|]. rewrite weights_weigh. split; [reflexivity|exact F].
Qed.
Lemma kept_ran C b0 l b : kept C b0 -> ran (fair C nv na) dbg C b0 l b -> kept (weights C l) b /\ Forall nonneg l.
Proof.
  intros K0. induction 1 as [|l b c b' r R [IH1 IH2] P E]; [split; [rewrite weights_nil; exact K0|constructor]|].
  destruct (kept_call C l b c IH1 P) as (b1 & r1 & E1 & _ & K1). rewrite E in E1. injection E1 as <- <-. split; [exact K1|]. apply Forall_app. split; [exact IH2|]. constructor; [|constructor]. destruct c; [exact I|apply P].
Qed.

(** ** The loop *)
Definition ceff (c : call Rnum) (f : bool * bool) : bool * bool := match c with Do o => eff o f | Weigh _ _ => f end.
Definition lawful1 (f : bool * bool) (c : call Rnum) : Prop :=
  match c with Do o => forall s, flag_rule (mkBiped s (fst f) (snd f)) o | Weigh n w => In n (soft_names ++ hard_names) /\ (0 <= w)%R end.
Fixpoint lawful (f : bool * bool) (l : list (call Rnum)) : Prop := match l with [] => True | c :: l' => lawful1 f c /\ lawful (ceff c f) l' end.
Definition effs (l : list (call Rnum)) (f : bool * bool) : bool * bool := fold_left (fun f c => ceff c f) l f.
Lemma lawful_app l1 : forall f l2, lawful f (l1 ++ l2) <-> lawful f l1 /\ lawful (effs l1 f) l2.
Proof. induction l1 as [|c l1 IH]; intros f l2; cbn; [intuition|]. rewrite IH. unfold effs. cbn. intuition. Qed.
Lemma effs_app l1 l2 f : effs (l1 ++ l2) f = effs l2 (effs l1 f).
Proof. unfold effs. apply fold_left_app. Qed.
Lemma cstep_flags C b c b' r : cstep dbg C b c = Ret b' r -> flags b' = ceff c (flags b).
Proof.
  destruct c as [o|n w]; [apply bstep_flags|]. cbn [cstep]. destruct (step (b_f b) (OUpdTask n w)); intros E; try discriminate. injection E as <- _. reflexivity.
Qed.
Lemma lawful_fair C b c : lawful1 (flags b) c -> fed C nv na b c -> fair C nv na b c.
Proof.
  destruct b as [s rf lf]. destruct c as [o|n w]; intros L F; [|exact L]. specialize (L s). cbn in L. split; [exact L|]. destruct o; try exact I; exact F.
Qed.
Lemma fed_ran C b0 l b : lawful (flags b0) l -> ran (fed C nv na) dbg C b0 l b -> ran (fair C nv na) dbg C b0 l b /\ flags b = effs l (flags b0).
Proof.
  intros L R. induction R as [|l b c b' r R IH P E]; [split; [constructor|reflexivity]|].
  apply lawful_app in L. destruct L as [L1 [L2 _]]. destruct (IH L1) as [Q F]. rewrite <- F in L2. split.
  - eapply ran_snoc; [exact Q|apply lawful_fair; assumption|exact E].
  - rewrite effs_app. cbn. rewrite <- F. eapply cstep_flags; exact E.
Qed.

Section L.
Variables (N : nat) (ph : nat -> phase) (w : R).
Hypotheses (HN : 1 <= N) (Hph : ph 0 = PRight) (Hw : (0 <= w)%R).
Lemma zero_now : ((n0 : Rnum) <? n0)%num = false.
Proof. apply not_true_iff_false. intros H. apply ltb_pos in H. cbn in H. lra. Qed.
Lemma switch_lawful i : (i = Z.of_nat N -> ph (N - 1) = ph (N - 2)) -> lawful (cop_support N ph (i - 1)) (cop_switch N ph (w : Rnum) i) /\ effs (cop_switch N ph (w : Rnum) i) (cop_support N ph (i - 1)) = cop_support N ph i.
Proof.
  intros Hlast. unfold cop_switch. destruct (Z.eqb_spec i 0) as [->|Hi].
  - unfold cop_support. change (0 - 1 <? 0)%Z with true. cbn [orb]. change (0 <? 0)%Z with false. cbn [orb].
    destruct (Z.leb_spec (Z.of_nat N) 0) as [Q|Q]; [lia|]. cbn [Z.to_nat Nat.min]. rewrite Hph. cbn [lawful lawful1 ceff eff effs fold_left fst snd flag_rule b_rf b_lf phase_eqb]. split; [|reflexivity]. repeat split; auto using zero_now. right. left. reflexivity.
  - destruct ((0 <? i) && (i <? Z.of_nat N - 1))%Z eqn:G.
    + apply andb_true_iff in G. destruct G as (G1 & G2). apply Z.ltb_lt in G1, G2. unfold cop_support.
      destruct (Z.ltb_spec (i - 1) 0) as [Q|_]; [lia|]. destruct (Z.leb_spec (Z.of_nat N) (i - 1)) as [Q|_]; [lia|].
      destruct (Z.ltb_spec i 0) as [Q|_]; [lia|]. destruct (Z.leb_spec (Z.of_nat N) i) as [Q|_]; [lia|]. cbn [orb].
      replace (Nat.min (Z.to_nat (i - 1)) (N - 2)) with (Z.to_nat i - 1) by lia. replace (Nat.min (Z.to_nat i) (N - 2)) with (Z.to_nat i) by lia.
      destruct (ph (Z.to_nat i)), (ph (Z.to_nat i - 1)); cbn [lawful lawful1 ceff eff effs fold_left fst snd flag_rule b_rf b_lf phase_eqb]; repeat split; auto using zero_now.
    + apply andb_false_iff in G. rewrite Z.ltb_ge, Z.ltb_ge in G. destruct (Z.eqb_spec i (Z.of_nat N)) as [->|Hi2].
      * unfold cop_support. destruct (Z.ltb_spec (Z.of_nat N - 1) 0) as [Q|_]; [lia|]. destruct (Z.leb_spec (Z.of_nat N) (Z.of_nat N - 1)) as [Q|_]; [lia|]. rewrite Z.leb_refl, orb_true_r. cbn [orb].
        replace (Nat.min (Z.to_nat (Z.of_nat N - 1)) (N - 2)) with (N - 2) by lia. rewrite <- (Hlast eq_refl). destruct (ph (N - 1)); cbn [lawful lawful1 ceff eff effs fold_left fst snd flag_rule b_rf b_lf phase_eqb]; repeat split; auto.
      * cbn [lawful effs fold_left]. split; [exact I|]. unfold cop_support.
        destruct (Z.ltb_spec (i - 1) 0), (Z.ltb_spec i 0), (Z.leb_spec (Z.of_nat N) (i - 1)), (Z.leb_spec (Z.of_nat N) i); cbn [orb]; try lia; try reflexivity.
        replace (Nat.min (Z.to_nat i) (N - 2)) with (Nat.min (Z.to_nat (i - 1)) (N - 2)) by lia. reflexivity.
Qed.
Lemma gets_lawful f (l : list (getter * vec Rnum)) : lawful f (map (fun p => Do (Get (fst p) (snd p))) l) /\ effs (map (fun p => Do (Get (fst p) (snd p))) l) f = f.
Proof. induction l as [|p l [IH1 IH2]]; cbn; [auto|]. repeat split; auto. Qed.
Lemma loop_lawful l : forall i, ((Z.of_nat N < i + Z.of_nat (List.length l))%Z -> ph (N - 1) = ph (N - 2)) -> lawful (cop_support N ph (i - 1)) (cop_loop N ph (w : Rnum) i l) /\
  effs (cop_loop N ph (w : Rnum) i l) (cop_support N ph (i - 1)) = cop_support N ph (i + Z.of_nat (List.length l) - 1).
Proof.
  induction l as [|[[t e] g] l IH]; intros i Hl.
  - cbn. replace (i + 0 - 1)%Z with (i - 1)%Z by lia. auto.
  - cbn [cop_loop]. unfold cop_iteration. destruct (switch_lawful i) as [S1 S2]; [intros ->; apply Hl; cbn [List.length]; lia|]. destruct (IH (i + 1)%Z) as [I1 I2]; [intros Q; apply Hl; cbn [List.length]; lia|]. replace (i + 1 - 1)%Z with i in * by lia.
    destruct (gets_lawful (cop_support N ph i) g) as [G1 G2].
    rewrite !lawful_app, !effs_app, S2. change (effs [Do (Compute t e)] (cop_support N ph i)) with (cop_support N ph i). rewrite G2, I2.
    replace (i + 1 + Z.of_nat (List.length l) - 1)%Z with (i + Z.of_nat (List.length ((t, e, g) :: l)) - 1)%Z by (cbn [List.length]; lia).
    repeat split; auto.
Qed.
End L.

(** Weights along the loop. *)
Section W.
Variables (N : nat) (ph : nat -> phase) (w : R).
Lemma latest_app n l1 l2 d : latest n (l1 ++ l2) d = latest n l2 (latest n l1 d).
Proof. unfold latest. apply fold_left_app. Qed.
Lemma latest_gets n (g : list (getter * vec Rnum)) d : latest n (map (fun p => Do (Get (fst p) (snd p))) g) d = d.
Proof. induction g as [|p g IH]; [reflexivity|exact IH]. Qed.
Lemma latest_switch n i d : latest n (cop_switch N ph (w : Rnum) i) d = if (i =? 0)%Z && String.eqb "task-cop" n then w else d.
Proof.
  unfold cop_switch. destruct (i =? 0)%Z; [reflexivity|]. cbn [andb]. destruct ((0 <? i) && (i <? Z.of_nat N - 1))%Z.
  - destruct (phase_eqb _ _), (ph (Z.to_nat i)); reflexivity.
  - destruct (i =? Z.of_nat N)%Z; [destruct (ph (N - 1)); reflexivity|reflexivity].
Qed.
Lemma latest_loop n l : forall i d, latest n (cop_loop N ph (w : Rnum) i l ++ cop_switch N ph (w : Rnum) (i + Z.of_nat (List.length l))) d =
  if ((i <=? 0) && (0 <=? i + Z.of_nat (List.length l)))%Z && String.eqb "task-cop" n then w else d.
Proof.
  induction l as [|[[t e] g] l IH]; intros i d.
  - cbn [cop_loop app List.length]. rewrite Z.add_0_r, latest_switch. replace (i =? 0)%Z with ((i <=? 0) && (0 <=? i))%Z; [reflexivity|].
    destruct (Z.eqb_spec i 0), (Z.leb_spec i 0), (Z.leb_spec 0 i); try reflexivity; lia.
  - cbn [cop_loop]. unfold cop_iteration. rewrite <- !app_assoc. rewrite latest_app, latest_switch.
    change ([Do (Compute t e)] ++ ?a) with (Do (Compute t e) :: a). change (latest n (Do (Compute t e) :: ?a)) with (latest n a). rewrite latest_app, latest_gets.
    replace (i + Z.of_nat (List.length ((t, e, g) :: l)))%Z with (i + 1 + Z.of_nat (List.length l))%Z by (cbn [List.length]; lia). rewrite IH.
    destruct (Z.eqb_spec i 0), (Z.leb_spec i 0), (Z.leb_spec (i + 1) 0), (Z.leb_spec 0 (i + 1 + Z.of_nat (List.length l))); try lia; cbn [andb]; destruct (String.eqb "task-cop" n); reflexivity.
Qed.
Lemma weights_loop C i0 l : (i0 <= 0)%Z -> weights C (cop_loop N ph (w : Rnum) i0 l ++ cop_switch N ph (w : Rnum) (i0 + Z.of_nat (List.length l))) = cop_conf C w (i0 + Z.of_nat (List.length l)).
Proof.
  intros H. unfold weights. rewrite !latest_loop. cbn [String.eqb Ascii.eqb Bool.eqb]. unfold cop_conf. rewrite andb_false_r, andb_true_r.
  destruct (Z.leb_spec i0 0) as [_|Q]; [|lia]. cbn [andb]. destruct (Z.leb_spec 0 (i0 + Z.of_nat (List.length l))), (Z.ltb_spec (i0 + Z.of_nat (List.length l)) 0); try lia; destruct C; reflexivity.
Qed.
End W.

(** ** From the constructor *)
Section T.
Variables (C : conf Rnum) (e0 e1 : env Rnum) (b0 : biped Rnum).
Hypotheses (Hc : conf_ok C) (S0 : sizes_ok nv e0) (S1 : sizes_ok nv e1) (W0 : whole e0) (W1 : whole e1).
Hypothesis E0 : biped_new dbg C nv na M0 H0 x y e0 e1 = Some b0.
Lemma at_start : kept C b0 /\ flags b0 = (true, true).
Proof.
  split; [exact (kept_start dbg C nv na M0 H0 fmin fmax nf nf' Hrob e0 e1 b0 Hc S0 S1 W0 W1 E0)|].
  destruct (start_ok dbg whole C nv na M0 H0 x y Hrob (x_six _ _ _) (y_six _ _ _) e0 e1 Hc S0 S1 W0 W1) as (b & E' & F1 & F2 & _). assert (b = b0) by congruence. subst b. unfold flags. rewrite F1, F2. reflexivity.
Qed.
Lemma ran_next l b c : ran (fair C nv na) dbg C b0 l b -> fair C nv na b c -> exists b' r, cstep dbg C b c = Ret b' r /\ answer_ok c r.
Proof.
  intros R P. destruct (kept_ran C b0 l b (proj1 at_start) R) as [Kb _]. destruct (kept_call C l b c Kb P) as (b' & r & E & A & _). eauto.
Qed.
Section P.
Variables (l : list (call Rnum)) (b b' : biped Rnum) (t : Rnum) (e : env Rnum) (out : fout Rnum).
Local Notation on := (objs (b_rf b) (b_lf b)).
Hypothesis R : ran (fair C nv na) dbg C b0 l b.
Hypotheses (Z : sized C nv na on e) (We : whole e).
Hypothesis Es : cstep dbg C b (Do (Compute t e)) = Ret b' out.
Lemma ran_best r v : answered (b_f b') r v -> exists place, placed on place /\ best (weights C l) nv na fmin fmax on place e r (vget v) /\
  ((0 < r)%R -> (0 <= w_forceRef C)%R -> forall z, best (weights C l) nv na fmin fmax on place e r z -> forall i, i < nv + 12 * List.length on -> z i = vget v i) /\
  (forall k g s1 s2 u, vlen v = nv + 12 * List.length on -> gets (b_f b') k v = Some s1 -> get s1 g v = Ret s2 u -> reads nv na on place e v g u).
Proof.
  destruct (kept_ran C b0 l b (proj1 at_start) R) as [Kb Fl]. cbn [cstep] in Es. rewrite <- (bstep_weights C l) in Es.
  exact (kept_best dbg (weights C l) nv na M0 H0 fmin fmax nf nf' Hrob b b' t e out (weights_conf_ok C l Hc Fl) Kb (proj1 (sized_weights C l _ _) Z) We Es r v).
Qed.
Lemma ran_answer : (0 <= w_forceRef C)%R -> (forall place, placed on place -> exists z, possible C nv na fmin fmax on place e z) -> exists v, answered (b_f b') reg8 v.
Proof.
  intros Wf Ex. destruct (kept_ran C b0 l b (proj1 at_start) R) as [Kb Fl]. cbn [cstep] in Es. rewrite <- (bstep_weights C l) in Es.
  apply (kept_answer dbg (weights C l) nv na M0 H0 fmin fmax nf nf' Hrob b b' t e out (weights_conf_ok C l Hc Fl) Kb (proj1 (sized_weights C l _ _) Z) We Es Wf).
  intros place Hp. destruct (Ex place Hp) as [z Hz]. exists z. destruct Hz; constructor; assumption.
Qed.
End P.
Section L.
Variables (N : nat) (ph : nat -> phase) (w : R) (i0 : Z) (l : list (Rnum * env Rnum * list (getter * vec Rnum))).
Hypotheses (HN : 1 <= N) (Hph : ph 0 = PRight) (Hw : (0 <= w)%R) (Hi : (i0 <= 0)%Z).
Local Notation i := (i0 + Z.of_nat (List.length l))%Z.
Local Notation prog := (cop_loop N ph (w : Rnum) i0 l ++ cop_switch N ph (w : Rnum) i).
Lemma start_flags : flags b0 = cop_support N ph (i0 - 1).
Proof. rewrite (proj2 at_start). unfold cop_support. destruct (Z.ltb_spec (i0 - 1) 0); [reflexivity|lia]. Qed.
Section G.
Hypothesis Hlast : ph (N - 1) = ph (N - 2).
Lemma prog_lawful : lawful (flags b0) prog /\ effs prog (flags b0) = cop_support N ph i.
Proof.
  rewrite start_flags. destruct (loop_lawful N ph w HN Hph Hw l i0 (fun _ => Hlast)) as [L1 L2]. destruct (switch_lawful N ph w HN Hph Hw i (fun _ => Hlast)) as [L3 L4].
  rewrite lawful_app, effs_app, L2. auto.
Qed.
Lemma walk_next l1 c l2 b : prog = l1 ++ c :: l2 -> ran (fed C nv na) dbg C b0 l1 b -> fed C nv na b c -> exists b' r, cstep dbg C b c = Ret b' r /\ answer_ok c r.
Proof.
  intros E R F. destruct prog_lawful as [L _]. rewrite E in L. apply lawful_app in L. destruct L as [L1 [L2 _]]. destruct (fed_ran C b0 l1 b L1 R) as [Q G]. rewrite <- G in L2.
  apply (ran_next l1 b c Q). apply lawful_fair; assumption.
Qed.
Lemma walk_end b : ran (fed C nv na) dbg C b0 prog b -> ran (fair C nv na) dbg C b0 prog b /\ (b_rf b, b_lf b) = cop_support N ph i /\ weights C prog = cop_conf C w i /\
  stands (cop_conf C w i) nv na (b_rf b) (b_lf b) (b_f b).
Proof.
  intros R. destruct prog_lawful as [L G]. destruct (fed_ran C b0 _ b L R) as [Q F]. split; [exact Q|]. split; [rewrite G in F; exact F|]. assert (Wl := weights_loop N ph w C i0 l Hi). split; [exact Wl|].
  destruct (kept_ran C b0 _ b (proj1 at_start) Q) as [[U _] _]. rewrite Wl in U. exact (up_stands dbg whole _ nv na M0 H0 x y Hrob (x_six _ _ _) (y_six _ _ _) _ _ _ U).
Qed.
End G.
(** With such data the loop runs through. *)
Definition live (pre : list (call Rnum)) (b : biped Rnum) : Prop := ran (fed C nv na) dbg C b0 pre b /\ kept (weights C pre) b.
Lemma live_one pre b c : live pre b -> lawful1 (flags b) c -> fed C nv na b c -> exists b' r, live (pre ++ [c]) b' /\ cstep dbg C b c = Ret b' r /\ flags b' = ceff c (flags b).
Proof.
  intros [R Kb] L F. destruct (kept_call C pre b c Kb (lawful_fair C b c L F)) as (b' & r & E & _ & K'). exists b', r. split; [split; [eapply ran_snoc; eassumption|exact K']|]. split; [exact E|]. eapply cstep_flags; exact E.
Qed.
Lemma live_list l2 : forall pre b, live pre b -> lawful (flags b) l2 -> Forall (fun c => forall z, fed C nv na z c) l2 -> exists b', live (pre ++ l2) b' /\ flags b' = effs l2 (flags b).
Proof.
  induction l2 as [|c l2 IH]; intros pre b Lv L F; [exists b; rewrite app_nil_r; auto|]. destruct L as [L1 L2]. apply Forall_cons_iff in F. destruct F as [F1 F2].
  destruct (live_one pre b c Lv L1 (F1 b)) as (b1 & r & Lv1 & _ & G). rewrite <- G in L2. destruct (IH (pre ++ [c]) b1 Lv1 L2 F2) as (b' & Lv' & G'). exists b'. rewrite <- app_assoc in Lv'. split; [exact Lv'|]. rewrite G', G. reflexivity.
Qed.
Definition decoded (b : biped Rnum) : Prop := f_dec (b_f b) = true -> vlen (f_f (b_f b)) = f_k (b_f b).
Lemma live_size pre b : live pre b -> nVar (b_f b) = nv + 12 * List.length (objs (b_rf b) (b_lf b)).
Proof.
  intros [_ [U _]]. destruct (up_stands dbg whole _ nv na M0 H0 x y Hrob (x_six _ _ _) (y_six _ _ _) _ _ _ U) as (_ & Nv & _). rewrite Nv. unfold objs, count. destruct (b_rf b), (b_lf b); reflexivity.
Qed.
Lemma decode_len (s : fstate Rnum) v (s' : fstate Rnum) : decode s v = Some s' -> (f_dec s = true -> vlen (f_f s) = f_k s) -> f_dec s' = true -> vlen (f_f s') = f_k s'.
Proof.
  unfold decode. destruct (f_dec s) eqn:Ed; [intros E; injection E as <-; intros H _; exact (H eq_refl)|]. intros E _ _.
  apply obind_some in E. destruct E as (d & _ & E). apply obind_some in E. destruct E as (dv & _ & E). apply obind_some in E. destruct E as (f & Ef & E). repeat (ob E).
  injection E as <-. cbn. unfold vtail in Ef. destruct (_ <=? _); [|discriminate]. unfold vsegment in Ef. destruct (_ <=? _); [|discriminate]. injection Ef as <-. reflexivity.
Qed.
Lemma live_gets g : forall pre b, live pre b -> decoded b -> Forall (fun p : getter * vec Rnum => vlen (snd p) = nv + 12 * List.length (objs (b_rf b) (b_lf b))) g ->
  exists b', live (pre ++ map (fun p => Do (Get (fst p) (snd p))) g) b' /\ flags b' = flags b.
Proof.
  induction g as [|[gt v] g IH]; intros pre b Lv Hd F; [exists b; cbn; rewrite app_nil_r; auto|]. apply Forall_cons_iff in F. destruct F as [F1 F2]. cbn [snd] in F1.
  destruct (live_one pre b (Do (Get gt v)) Lv) as (b1 & r & Lv1 & E & G).
  - intros s. exact I.
  - split; [rewrite (live_size pre b Lv); exact F1|]. destruct gt; try exact I. exact Hd.
  - cbn [ceff eff] in G. assert (G' := G). unfold flags in G'. injection G' as G1 G2.
    destruct (IH (pre ++ [Do (Get gt v)]) b1 Lv1) as (b' & Lv' & G').
    + unfold decoded. cbn [cstep bstep Formulation.step] in E. unfold get in E. destruct (decode (b_f b) v) as [s1|] eqn:Ed; [|discriminate].
      assert (Q : b_f b1 = s1) by (destruct gt; try (injection E as <- _; reflexivity); destruct (find_contact s1 name) as [cl|]; [destruct (vsegment _ _ _); [|discriminate]|]; injection E as <- _; reflexivity).
      rewrite Q. exact (decode_len _ _ _ Ed Hd).
    + rewrite G1, G2. exact F2.
    + exists b'. cbn [map fst snd]. rewrite <- app_assoc in Lv'. split; [exact Lv'|]. rewrite G'. exact G.
Qed.
Lemma switch_fed (i : Z) : Forall (fun c => forall z, fed C nv na z c) (cop_switch N ph (w : Rnum) i).
Proof.
  unfold cop_switch. destruct (i =? 0)%Z; [repeat constructor|]. destruct ((0 <? i) && (i <? Z.of_nat N - 1))%Z.
  - destruct (phase_eqb _ _), (ph (Z.to_nat i)); repeat constructor.
  - destruct (i =? Z.of_nat N)%Z; [destruct (ph (N - 1)); repeat constructor|constructor].
Qed.
Lemma live_loop l' : forall i pre b, ((Z.of_nat N < i + Z.of_nat (List.length l'))%Z -> ph (N - 1) = ph (N - 2)) -> live pre b -> flags b = cop_support N ph (i - 1) -> supplied C nv na N ph i l' ->
  exists b', live (pre ++ cop_loop N ph (w : Rnum) i l') b' /\ flags b' = cop_support N ph (i + Z.of_nat (List.length l') - 1).
Proof.
  induction l' as [|[[t e] g] l' IH]; intros i pre b Hl Lv Fb Sp.
  - exists b. cbn [cop_loop List.length]. rewrite app_nil_r. replace (i + Z.of_nat 0 - 1)%Z with (i - 1)%Z by lia. auto.
  - cbn [supplied] in Sp. destruct Sp as [(Sz & We & Fg) Sp]. destruct (switch_lawful N ph w HN Hph Hw i) as [L3 L4]; [intros ->; apply Hl; cbn [List.length]; lia|]. rewrite <- Fb in L3, L4.
    destruct (live_list _ pre b Lv L3 (switch_fed i)) as (b1 & Lv1 & F1). rewrite L4 in F1. assert (F1' := F1). unfold flags in F1'. rewrite <- F1' in Sz, Fg. cbn [fst snd] in Sz, Fg.
    destruct (live_one _ b1 (Do (Compute t e)) Lv1) as (b2 & r & Lv2 & E & F2); [intros s; exact I|split; assumption|]. cbn [ceff eff] in F2. assert (F2' := F2). unfold flags in F2'. injection F2' as F3 F4.
    destruct (live_gets g _ b2 Lv2) as (b3 & Lv3 & F5).
    + intros X. exfalso. cbn [cstep bstep] in E. destruct (step (b_f b1) (OCompute t e)) as [s2 r2| |] eqn:Q; try discriminate. cbn [onb] in E. injection E as <- <-. cbn [b_f] in X.
      assert (Ou : r2 = OutUnit) by (revert Q; cbn [Formulation.step]; destruct (compute dbg (b_f b1) t e); intros Q; try discriminate; injection Q as _ <-; reflexivity). subst r2. rewrite (compute_not_decoded dbg _ _ _ _ Q) in X. discriminate.
    + rewrite F3, F4. exact Fg.
    + destruct (fun A => IH (i + 1)%Z _ b3 A Lv3) as (b' & Lv' & F'); [intros Q; apply Hl; cbn [List.length]; lia|replace (i + 1 - 1)%Z with i by lia; rewrite F5, F2; exact F1|exact Sp|].
      exists b'. cbn [cop_loop]. unfold cop_iteration. rewrite <- !app_assoc in Lv'. rewrite <- !app_assoc. split; [exact Lv'|]. rewrite F'. f_equal. cbn [List.length]. lia.
Qed.
Lemma walk_runs : ((Z.of_nat N < i)%Z -> ph (N - 1) = ph (N - 2)) -> supplied C nv na N ph i0 l -> exists b, ran (fed C nv na) dbg C b0 (cop_loop N ph (w : Rnum) i0 l) b.
Proof.
  intros Hl Sp. destruct (live_loop l i0 [] b0) as (b & Lv & F); [exact Hl|split; [constructor|rewrite weights_nil; apply at_start]|apply start_flags|exact Sp|]. exists b. apply Lv.
Qed.
(** The last sample on another foot than the one before. *)
Lemma wrong_end b : ph (N - 1) <> ph (N - 2) -> i = Z.of_nat N -> ran (fed C nv na) dbg C b0 (cop_loop N ph (w : Rnum) i0 l) b ->
  let right := match ph (N - 2) with PRight => true | PLeft => false end in
  let foot := if right then "contact_rfoot" else "contact_lfoot" in
  (b_rf b, b_lf b) = (right, negb right) /\ cop_switch N ph (w : Rnum) i = [Do (if right then AddRF n0 else AddLF n0)] /\
  exists b' r, cstep dbg C b (Do (if right then AddRF n0 else AddLF n0)) = Ret b' r /\
    (b_rf b', b_lf b') = (right, negb right) /\ contact_names (b_f b') = [foot; foot] /\ nVar (b_f b') = nv + 24.
Proof.
  intros Ne Ei R right foot. assert (N2 : 2 <= N) by (destruct N as [|[|k]]; [lia|exfalso; apply Ne; reflexivity|lia]).
  destruct (loop_lawful N ph w HN Hph Hw l i0) as [L1 L2]; [intros Q; lia|]. rewrite <- start_flags in L1, L2. destruct (fed_ran C b0 _ b L1 R) as [Q F]. rewrite L2, Ei in F.
  assert (Su : cop_support N ph (Z.of_nat N - 1) = (right, negb right)).
  { unfold cop_support, right. destruct (Z.ltb_spec (Z.of_nat N - 1) 0); [lia|]. destruct (Z.leb_spec (Z.of_nat N) (Z.of_nat N - 1)); [lia|]. cbn [orb].
    replace (Nat.min (Z.to_nat (Z.of_nat N - 1)) (N - 2)) with (N - 2) by lia. destruct (ph (N - 2)); reflexivity. }
  rewrite Su in F. split; [exact F|]. split.
  { rewrite Ei. unfold cop_switch. destruct (Z.eqb_spec (Z.of_nat N) 0); [lia|]. destruct (Z.ltb_spec (Z.of_nat N) (Z.of_nat N - 1)); [lia|]. rewrite andb_false_r, Z.eqb_refl. unfold right.
    destruct (ph (N - 1)), (ph (N - 2)); try reflexivity; exfalso; apply Ne; reflexivity. }
  destruct (kept_ran C b0 _ b (proj1 at_start) Q) as [[(cs & q0 & q1 & D & Pc & _) _] _].
  unfold flags in F. injection F as F1 F2. rewrite F1, F2 in Pc.
  destruct (foot_step dbg whole nv na M0 H0 Hrob [x; y] cs q0 q1 (b_f b) C (if right then 0 else 1) (if right then x else y) foot D) as (s' & r & E & G1 & _ & G3 & _).
  { unfold foot. destruct right; reflexivity. }
  { unfold foot. destruct right; [apply x_six|apply y_six]. }
  exists (mkBiped s' (b_rf b) (b_lf b)), r. split; [|split; [cbn; rewrite F1, F2; reflexivity|]].
  { destruct right; cbn [cstep bstep]; rewrite E; cbn [onb fst snd]; rewrite F1, F2; reflexivity. }
  assert (Ec : cs = [if right then 0 else 1]). { destruct right; cbn in Pc; apply Permutation_sym, Permutation_length_1_inv in Pc; exact Pc. }
  cbn [b_f]. split.
  - rewrite names_objs, G1, G3, Ec. unfold foot. destruct right; reflexivity.
  - assert (A : reach step any (init nv na M0 H0) s').
    { eapply reach_step; [|exact I|rewrite E; reflexivity]. eapply reach_weaken; [|exact (d_hist _ _ _ _ _ _ _ _ _ _ _ D)]. intros; exact I. }
    destruct (all_columns dbg nv na M0 H0 s' A) as [Nv _]. rewrite Nv. f_equal.
    assert (Sl : map snd (slots s') = map (fun o => match nth_error [x; y] o with Some c => co_nforce c | None => 0 end) (contact_objs s')).
    { unfold slots, contact_objs. rewrite !map_map. apply map_ext. intros c. cbn [snd]. unfold cl_nforce, cobj_at. rewrite G1. reflexivity. }
    rewrite Sl, G3, Ec. destruct right; reflexivity.
Qed.
End L.
End T.
End B.
