(** Renaming tasks, contacts and measured forces (C76). *)
From Coq Require Import String List Arith Bool ZArith QArith Lia.
From Verif Require Import Scalar Outcome Linalg Constraint Formulation ListUtil FormSpec FormInvB FormSafe FormSafe2 FormMain FormCheck FormWitness FormRefute FormNames.
Import ListNotations.
Open Scope string_scope.
Open Scope list_scope.
Open Scope nat_scope.

Theorem C76_columns : forall (K : num) dbg nv na (M0 : mat K) H0 P s, reach (nstep dbg) P (init nv na M0 H0) s ->
  nVar s = nv + sum_nat (map snd (slots s)) /\ tiles 0 (slots s) (f_k s) /\
  forall lvl en, In lvl (hqp s) -> In en lvl -> exists c, snd en = Some c /\ mcols (c_mat c) = nVar s.
Proof. exact @renamed_columns. Qed.
Print Assumptions C76_columns.
Theorem C76_counters : forall (K : num) dbg nv na (M0 : mat K) H0 s,
  reach (nstep dbg) (fun s o => harmless s o /\ calls (fun s o => names_ok s o /\ no_hard_force_removal s o) s o) (init nv na M0 H0) s ->
  nEq s = Z.of_nat (hard_eq_rows s) /\ nIn s = Z.of_nat (hard_in_rows s).
Proof. exact @harmless_counters. Qed.
Print Assumptions C76_counters.
Theorem C76_defined : forall (K : num) dbg nv na (M0 : mat K) H0 s o, robot_ok nv M0 H0 ->
  reach (nstep dbg) (hgood dbg) (init nv na M0 H0) s -> calls (op_ok dbg) s o -> nstep dbg s o <> Undef.
Proof. exact @harmless_defined. Qed.
Print Assumptions C76_defined.
Theorem C76_task : forall (K : num) dbg nv na (M0 : mat K) H0 s t n, robot_ok nv M0 H0 -> reach (nstep dbg) (hgood dbg) (init nv na M0 H0) s ->
  In t (f_motions s ++ f_forces s ++ f_acts s) -> ~ In n (hqp_names s) ->
  exists s1, nstep dbg s (NTask (tl_task t) n) = Ret s1 OutUnit /\ hqp s1 = hqp s /\
  (dbg = true -> nstep dbg s1 (NCall (ORemTask n)) = Undef) /\
  (dbg = false -> exists s', nstep dbg s1 (NCall (ORemTask n)) = Ret s' (OutBool true) /\ hqp s' = hqp s /\ nVar s' = nVar s /\
    ((forall t', In t' (f_motions s ++ f_forces s ++ f_acts s) -> tl_task t' = tl_task t -> t' = t) -> In t (f_motions s ++ f_acts s) -> tl_prio t = 0 ->
     forall w c, In (w, Some c) (nth 0 (hqp s) []) -> c_name c = tl_name t ->
     nEq s' = (nEq s - Z.of_nat (eq_part c))%Z /\ nIn s' = (nIn s - Z.of_nat (in_part c))%Z)) /\
  (exists s', nstep dbg s1 (NCall (ORemTask (tl_name t))) = Ret s' (OutBool false) /\
    hqp s' = map (filter (unnamed (tl_name t))) (hqp s) /\ nVar s' = nVar s /\ nEq s' = nEq s /\ nIn s' = nIn s /\
    List.length (f_motions s' ++ f_forces s' ++ f_acts s') = List.length (f_motions s ++ f_forces s ++ f_acts s)).
Proof. exact @renamed_task. Qed.
Print Assumptions C76_task.
Theorem C76_contact : forall (K : num) dbg nv na (M0 : mat K) H0 s o x n d, robot_ok nv M0 H0 -> reach (nstep dbg) (hgood dbg) (init nv na M0 H0) s ->
  In o (contact_objs s) -> nth_error (f_objs s) o = Some x -> fresh s n -> (n0 <? d)%num = false ->
  exists s1, nstep dbg s (NContact o n) = Ret s1 OutUnit /\ hqp s1 = hqp s /\
  (dbg = true -> nstep dbg s1 (NCall (ORemContact n d)) = Undef) /\
  (dbg = false -> exists s', nstep dbg s1 (NCall (ORemContact n d)) = Ret s' (OutBool false) /\ hqp_names s' = hqp_names s /\
    drops_one (eq o) (contact_objs s) (contact_objs s') /\ nVar s' + co_nforce x = nVar s) /\
  (exists s', nstep dbg s1 (NCall (ORemContact (co_name x) d)) = Ret s' (OutBool false) /\
    hqp s' = map (filter (fun e => unnamed (co_name x ++ "_motion_task") e && (unnamed (co_name x ++ "_force_constraint") e && unnamed (co_name x ++ "_force_reg_task") e))) (hqp s) /\
    contact_objs s' = contact_objs s /\ nVar s' = nVar s /\ nEq s' = nEq s /\ nIn s' = nIn s).
Proof. exact @renamed_contact. Qed.
Print Assumptions C76_contact.

Theorem C76_measured : forall (K : num) dbg (s : fstate K) id n, exists s1, nstep dbg s (NMeas id n) = Ret s1 OutUnit /\ hqp s1 = hqp s /\ nVar s1 = nVar s /\ nEq s1 = nEq s /\ nIn s1 = nIn s /\
  map fst (f_meas s1) = map fst (f_meas s) /\
  forall m, (exists s', nstep dbg s1 (NCall (ORemMeas m)) = Ret s' (OutBool true)) <->
    (m = n /\ In id (map fst (f_meas s))) \/ exists j, j <> id /\ In (j, m) (f_meas s).
Proof. exact @renamed_measured. Qed.
Print Assumptions C76_measured.

(** A history with harmless renamings: the hand is renamed before it is added, the measured
    force while present. *)
Definition renamings : list (nop (K := Qnum)) :=
  [NCall (ONewContact foot); NCall (ONewContact hand); NContact 1 "palm"; NCall (OAddContact 0 1%Q 1%Q 0); NCall (OAddContact 1 1%Q 1%Q 0);
   NCall (OAddMotion 0 "com" CEq 1 1%Q 0 0%Q); NCall (OAddMeas 0 "push"); NMeas 0 "pull"].
Definition okb (dbg : bool) (s : fstate Qnum) (o : nop (K := Qnum)) : bool :=
  match o with
  | NCall o => names_okb s o && op_okb dbg s o
  | NTask _ _ => false
  | NContact o _ => negb (existsb (Nat.eqb o) (contact_objs s))
  | NMeas _ _ => true
  end.
Fixpoint nrun (dbg : bool) (s : fstate Qnum) (l : list (nop (K := Qnum))) : option (fstate Qnum) :=
  match l with [] => Some s | o :: l => if okb dbg s o then match after (nstep dbg s o) with Some s => nrun dbg s l | None => None end else None end.
Lemma nrun_good dbg l s : Forall (fun o => match o with NCall o => @uniform_op Qnum o | _ => True end) l -> nrun dbg sQ l = Some s ->
  reach (nstep dbg) (hgood dbg) sQ s.
Proof.
  intros F H.
  assert (G : forall l s1, Forall (fun o => match o with NCall o => @uniform_op Qnum o | _ => True end) l -> reach (nstep dbg) (hgood dbg) sQ s1 ->
              nrun dbg s1 l = Some s -> reach (nstep dbg) (hgood dbg) sQ s).
  { clear. induction l as [|o l IH]; cbn [nrun]; intros s1 F Hr H; [injection H as <-; exact Hr|].
    inversion F as [|? ? F1 F2]; subst. destruct (okb dbg s1 o) eqn:C; [|discriminate].
    destruct (after (nstep dbg s1 o)) as [s2|] eqn:E; [|discriminate]. apply (IH s2); [exact F2| |exact H].
    eapply reach_step; [exact Hr| |exact E]. destruct o as [o|id n|o n|id n]; cbn [okb] in C; [|discriminate| |].
    - apply andb_true_iff in C. destruct C as [C1 C2]. split; [exact I|]. split; [apply names_okb_ok; exact C1|apply op_okb_ok; assumption].
    - split; [|exact I]. cbn [harmless]. intros X. apply negb_true_iff in C. assert (Y : existsb (Nat.eqb o) (contact_objs s1) = true); [|congruence].
      apply existsb_exists. exists o. split; [exact X|apply Nat.eqb_refl].
    - split; exact I. }
  apply (G l sQ); [exact F|constructor|exact H].
Qed.
Definition scene (dbg : bool) : fstate Qnum := match nrun dbg sQ renamings with Some s => s | None => sQ end.
Lemma scene_reach dbg : reach (nstep dbg) (hgood dbg) sQ (scene dbg).
Proof.
  apply (nrun_good dbg renamings); [repeat constructor|]. unfold scene.
  assert (E : some (nrun dbg sQ renamings) = true) by (destruct dbg; vm_compute; reflexivity). destruct (nrun dbg sQ renamings); [reflexivity|discriminate].
Qed.
Lemma notin n l : existsb (String.eqb n) l = false -> ~ In n l.
Proof.
  intros H X. assert (Y : existsb (String.eqb n) l = true); [|congruence]. apply existsb_exists. exists n. split; [exact X|apply String.eqb_refl].
Qed.
Example C76_case dbg : robot_ok 3 (mzero (K := Qnum) 3 3) (vzero 3) /\ reach (nstep dbg) (hgood dbg) sQ (scene dbg) /\
  contact_names (scene dbg) = ["foot"; "palm"] /\ In "palm_motion_task" (hqp_names (scene dbg)) /\ nVar (scene dbg) = 6 /\
  nEq (scene dbg) = 5%Z /\ map snd (f_meas (scene dbg)) = ["pull"] /\
  (exists t, In t (f_motions (scene dbg)) /\ tl_name t = "com" /\ tl_prio t = 0) /\ ~ In "mass" (hqp_names (scene dbg)) /\
  In 1 (contact_objs (scene dbg)) /\ fresh (scene dbg) "wrist".
Proof.
  split; [repeat split|]. split; [apply scene_reach|]. split; [destruct dbg; vm_compute; reflexivity|].
  split; [apply inb_in; destruct dbg; vm_compute; reflexivity|]. do 3 (split; [destruct dbg; vm_compute; reflexivity|]).
  split; [exists (nth 0 (f_motions (scene dbg)) (mkTl 0 "" 1 0)); destruct dbg; vm_compute; auto|].
  split; [apply notin; destruct dbg; vm_compute; reflexivity|]. split; [destruct dbg; vm_compute; auto|].
  split; [|split]; apply notin; destruct dbg; vm_compute; reflexivity.
Qed.
(** The claim of C01 fails when the task is renamed while present: nEq goes wrong by one. *)
Definition mass : fstate Qnum := ren_task (scene false) 0 "mass".
Lemma mass_named : names_okb mass (@ORemTask Qnum "mass") = true.
Proof. vm_compute. reflexivity. Qed.
Lemma mass_removed : is_bool true (step false mass (ORemTask "mass")) = true.
Proof. vm_compute. reflexivity. Qed.
Theorem C76_refuted : exists s, reach (nstep false) (calls (good false)) sQ s /\ nEq s <> Z.of_nat (hard_eq_rows s).
Proof.
  exists (end_of false mass (ORemTask "mass")). split.
  - apply (reach_step _ _ _ mass (NCall (ORemTask "mass"))).
    + apply (reach_step _ _ _ (scene false) (NTask 0 "mass")); [|exact I|reflexivity].
      assert (H := scene_reach false). induction H as [|s o s' H IH P E]; [constructor|]. eapply reach_step; [exact IH|apply P|exact E].
    + refine (conj (names_okb_ok _ _ mass_named) (fun X : false = true => False_ind _ (diff_false_true X))).
    + cbn [nstep]. rewrite (ret_bool false mass (ORemTask "mass") true mass_removed). reflexivity.
  - vm_compute. discriminate.
Qed.
Print Assumptions C76_refuted.
