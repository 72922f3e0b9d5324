(** The Python interface of the formulation (C83). *)
From Coq Require Import String List Arith Bool ZArith QArith Lia.
From Verif Require Import Scalar Outcome Linalg Constraint Formulation ListUtil FormSpec FormInvB FormSafe FormSafe2 FormMain FormCheck FormWitness FormRefute PyData.
Import ListNotations.
Open Scope string_scope.
Open Scope list_scope.
Open Scope nat_scope.

Theorem C83_fresh : forall (K : num) dbg (s : fstate K) t e s' d, py_compute dbg s t e = Ret s' d -> py_view s' d = hqp s'.
Proof. exact @py_fresh. Qed.
Print Assumptions C83_fresh.
Theorem C83_kept : forall (K : num) dbg nv na (M0 : mat K) H0 s t e s1 d s2,
  reach (step dbg) any (init nv na M0 H0) s -> py_compute dbg s t e = Ret s1 d -> reach (step dbg) (contacts_kept dbg) s1 s2 ->
  nVar s2 = nVar s1 /\ Forall2 (Forall2 (same_entry (nVar s2))) (hqp s1) (py_view s2 d).
Proof. exact @py_kept. Qed.
Print Assumptions C83_kept.
Theorem C83_live : forall (K : num) dbg (s : fstate K) t e s1 d s2,
  py_compute dbg s t e = Ret s1 d -> reach (step dbg) (only_values dbg) s1 s2 -> py_view s2 d = hqp s2.
Proof. exact @py_live. Qed.
Print Assumptions C83_live.
Theorem C83_contact_defined : forall (K : num) dbg nv na (M0 : mat K) H0 s c wr wm lvl, robot_ok nv M0 H0 ->
  reach (step dbg) (good dbg) (init nv na M0 H0) s -> c < List.length (f_objs s) ->
  exists s', py_add_contact s c wr wm lvl = Ret s' true.
Proof. exact @py_contact_defined. Qed.
Print Assumptions C83_contact_defined.
Theorem C83_contact_levels : forall (K : num) dbg nv na (M0 : mat K) H0 s c wr wm lvl s' b x, reach (step dbg) any (init nv na M0 H0) s ->
  py_add_contact s c wr wm lvl = Ret s' b -> nth_error (f_objs s) c = Some x ->
  forall i, listed s' i = listed s i ++ when (i =? Nat.min lvl 1) (wm, Some (co_name x ++ "_motion_task")%string)
    ++ when (i =? 0) (n1, Some (co_name x ++ "_force_constraint")%string) ++ when (i =? 1) (wr, Some (co_name x ++ "_force_reg_task")%string).
Proof. exact @py_contact_levels. Qed.
Print Assumptions C83_contact_levels.
Theorem C83_check : forall (K : num) dbg nv na (M0 : mat K) H0 s n x s' b, reach (step dbg) any (init nv na M0 H0) s ->
  py_check s n x = Ret s' b -> (forall y, In y (f_objs s) -> 0 < co_nforce y) -> (b = true <-> In n (contact_names s)).
Proof. exact @py_check_meaning. Qed.
Print Assumptions C83_check.

(** A computation on the scene of FormWitness, then another one with other values. *)
Definition at_work (dbg : bool) : fstate Qnum := endQ dbg build.
Definition after1 (dbg : bool) : fstate Qnum := end_of dbg (at_work dbg) (OCompute (K := Qnum) 0%Q one_env).
Definition env2 : env Qnum :=
  mkEnv (mident 3 3) (mkVec 3 (fun _ => 7%Q)) (e_cmotion (one_env (K := Qnum))) (e_gen one_env) (e_cforce one_env) (e_creg one_env) (e_task one_env) (e_assoc (one_env (K := Qnum))) (e_meas one_env).
Definition after2 (dbg : bool) : fstate Qnum := end_of dbg (after1 dbg) (OCompute (K := Qnum) 1%Q env2).
Lemma at_work_good dbg : reach (step dbg) (good dbg) sQ (at_work dbg).
Proof. apply endQ_good; [repeat constructor|destruct dbg; vm_compute; reflexivity]. Qed.
Lemma at_work_any dbg : reach (step dbg) any sQ (at_work dbg).
Proof. assert (H := at_work_good dbg). induction H as [|s o s' H IH P E]; [constructor|]. eapply reach_step; [exact IH|exact I|exact E]. Qed.
Lemma py_ret dbg (s : fstate Qnum) t e : ret_unit (step dbg s (OCompute t e)) = true ->
  py_compute dbg s t e = Ret (end_of dbg s (OCompute t e)) (f_hqp (end_of dbg s (OCompute t e))).
Proof.
  unfold end_of, py_compute. cbn [step]. destruct (compute dbg s t e) as [s1 []|s1|]; simpl; intros H; try discriminate. reflexivity.
Qed.
Lemma after1_ret dbg : py_compute dbg (at_work dbg) 0%Q one_env = Ret (after1 dbg) (f_hqp (after1 dbg)).
Proof. apply py_ret. destruct dbg; vm_compute; reflexivity. Qed.
Lemma after2_step dbg : step dbg (after1 dbg) (OCompute (K := Qnum) 1%Q env2) = Ret (after2 dbg) OutUnit.
Proof. apply ret_end. destruct dbg; vm_compute; reflexivity. Qed.

Lemma after_ret {S A} (s s' : S) (a : A) : after (Ret s a) = Some s' -> s' = s.
Proof. intros H. injection H as <-. reflexivity. Qed.
Lemma after2_values dbg : reach (step dbg) (only_values dbg) (after1 dbg) (after2 dbg).
Proof.
  eapply reach_step; [constructor| |rewrite (after2_step dbg); reflexivity]. split.
  - intros s'. rewrite (after2_step dbg). intros H. rewrite (after_ret _ _ _ H). clear H. destruct dbg; vm_compute; reflexivity.
  - cbn [only_values]. assert (E : f_trans (after1 dbg) = []) by (destruct dbg; vm_compute; reflexivity). rewrite E. contradiction.
Qed.

Definition is_ret {A} (b : bool) (r : outcome A bool) : bool := match r with Ret _ c => Bool.eqb b c | _ => false end.
Definition state_of {A} (d : A) (r : outcome A bool) : A := match r with Ret s _ => s | _ => d end.
Lemma is_ret_ok {A} (d : A) b r : is_ret b r = true -> r = Ret (state_of d r) b.
Proof. destruct r as [s c| |]; simpl; try discriminate. intros H. apply eqb_prop in H. rewrite H. reflexivity. Qed.

(** Right-hand sides seen through a data object. *)
Definition rhs (l : list (list (Q * option (constr Qnum)))) : list Q :=
  map (fun en => match snd en with Some c => Qred (vget (c_vec c) 0) | None => 0%Q end) (concat l).
Definition columns (l : list (list (Q * option (constr Qnum)))) : list nat :=
  map (fun en => match snd en with Some c => mcols (c_mat c) | None => 0 end) (concat l).

Example C83_case dbg : robot_ok 3 (mzero (K := Qnum) 3 3) (vzero 3) /\
  reach (step dbg) (good dbg) sQ (at_work dbg) /\ reach (step dbg) any sQ (at_work dbg) /\
  py_compute dbg (at_work dbg) 0%Q one_env = Ret (after1 dbg) (f_hqp (after1 dbg)) /\
  reach (step dbg) (contacts_kept dbg) (after1 dbg) (after2 dbg) /\
  reach (step dbg) (only_values dbg) (after1 dbg) (after2 dbg) /\
  rhs (py_view (after1 dbg) (f_hqp (after1 dbg))) <> rhs (py_view (after2 dbg) (f_hqp (after1 dbg))) /\
  1 < List.length (f_objs (at_work dbg)) /\ contact_names (at_work dbg) = ["foot"] /\
  (forall y, In y (f_objs (after1 dbg)) -> 0 < co_nforce y) /\
  (exists s', py_check (after1 dbg) "foot" (mkVec 5 (fun _ => 1%Q)) = Ret s' true) /\
  (exists s', py_check (after1 dbg) "hand" (mkVec 5 (fun _ => 1%Q)) = Ret s' false).
Proof.
  split; [repeat split|]. split; [apply at_work_good|]. split; [apply at_work_any|]. split; [apply after1_ret|].
  split. { assert (H := after2_values dbg). induction H as [|s o s' H IH P E]; [constructor|]. eapply reach_step; [exact IH|apply P|exact E]. }
  split; [apply after2_values|]. split; [destruct dbg; vm_compute; discriminate|]. split; [destruct dbg; vm_compute; lia|].
  split; [destruct dbg; vm_compute; reflexivity|].
  split.
  { assert (E : map co_nforce (f_objs (after1 dbg)) = [2; 1]) by (destruct dbg; vm_compute; reflexivity).
    intros y Hy. assert (H : In (co_nforce y) [2; 1]) by (rewrite <- E; apply in_map; exact Hy). destruct H as [<-|[<-|[]]]; lia. }
  split.
  - eexists. apply (is_ret_ok (after1 dbg)). destruct dbg; vm_compute; reflexivity.
  - eexists. apply (is_ret_ok (after1 dbg)). destruct dbg; vm_compute; reflexivity.
Qed.

(** The object is not a snapshot of the problem: its values change with the next computation,
    although the object is not touched (C83_live); and it does not follow the formulation
    either: weights set later are not in it. *)
Theorem C83_snapshot_refuted : exists dbg (s : fstate Qnum) t e s1 d s2, reach (step dbg) (good dbg) sQ s /\
  py_compute dbg s t e = Ret s1 d /\ reach (step dbg) (only_values dbg) s1 s2 /\ py_view s2 d <> py_view s1 d.
Proof.
  exists false, (at_work false), 0%Q, one_env, (after1 false), (f_hqp (after1 false)), (after2 false).
  split; [apply at_work_good|]. split; [apply after1_ret|]. split; [apply after2_values|].
  intros E. apply (f_equal rhs) in E. revert E. vm_compute. discriminate.
Qed.
Print Assumptions C83_snapshot_refuted.
Definition weights (l : list (list (Q * option (constr Qnum)))) : list Q := map fst (concat l).
Lemma weight_view dbg (s : fstate Qnum) n w d : py_view (end_of dbg s (OUpdTask n w)) d = py_view s d.
Proof.
  unfold end_of. cbn [step]. unfold upd_task_weight. destruct (f_hqp s) as [|l0 ls]; [reflexivity|].
  destruct (upd_weight_levels _ _ _ _); reflexivity.
Qed.
Theorem C83_weight_refuted : exists dbg (s : fstate Qnum) t e s1 d n w s2, reach (step dbg) (good dbg) sQ s /\
  py_compute dbg s t e = Ret s1 d /\ step dbg s1 (OUpdTask n w) = Ret s2 (OutBool true) /\
  py_view s2 d = py_view s1 d /\ hqp s2 <> py_view s2 d.
Proof.
  exists false, (at_work false), 0%Q, one_env, (after1 false), (f_hqp (after1 false)), "com", 9%Q, (end_of false (after1 false) (OUpdTask (K := Qnum) "com" 9%Q)).
  split; [apply at_work_good|]. split; [apply after1_ret|].
  assert (E : step false (after1 false) (OUpdTask (K := Qnum) "com" 9%Q) = Ret (end_of false (after1 false) (OUpdTask (K := Qnum) "com" 9%Q)) (OutBool true)).
  { apply ret_bool. vm_compute. reflexivity. }
  split; [exact E|]. split.
  { apply weight_view. }
  intros X. apply (f_equal weights) in X. revert X. vm_compute. discriminate.
Qed.
Print Assumptions C83_weight_refuted.
Lemma column_entry v i k : nth_error (columns v) i = Some (S k) -> exists c, In (Some c) (map snd (concat v)) /\ mcols (c_mat c) = S k.
Proof.
  intros H. unfold columns in H. rewrite nth_error_map in H. destruct (nth_error (concat v) i) as [en|] eqn:E; [|discriminate].
  simpl in H. destruct (snd en) as [c|] eqn:Ec; [|discriminate]. injection H as H. exists c. split; [|exact H].
  rewrite <- Ec. apply in_map. eapply nth_error_In; exact E.
Qed.
(** After the removal of a contact the object is not a problem any more: its constraints have
    different numbers of columns. *)
Theorem C83_removal_refuted : exists dbg (s : fstate Qnum) t e s1 d n w s2, reach (step dbg) (good dbg) sQ s /\
  py_compute dbg s t e = Ret s1 d /\ step dbg s1 (ORemContact n w) = Ret s2 (OutBool true) /\
  exists c c', In (Some c) (map snd (concat (py_view s2 d))) /\ In (Some c') (map snd (concat (py_view s2 d))) /\ mcols (c_mat c) <> mcols (c_mat c').
Proof.
  set (s2 := end_of false (after1 false) (ORemContact (K := Qnum) "foot" 0%Q)).
  exists false, (at_work false), 0%Q, one_env, (after1 false), (f_hqp (after1 false)), "foot", 0%Q, s2.
  split; [apply at_work_good|]. split; [apply after1_ret|].
  split. { apply ret_bool. vm_compute. reflexivity. }
  set (v := py_view s2 (f_hqp (after1 false))).
  assert (C : columns v = [3; 5; 5; 3; 5; 3; 3]) by (vm_compute; reflexivity).
  destruct (column_entry v 0 2) as (c & I1 & M1); [rewrite C; reflexivity|]. destruct (column_entry v 1 4) as (c' & I2 & M2); [rewrite C; reflexivity|].
  exists c, c'. split; [exact I1|]. split; [exact I2|]. rewrite M1, M2. discriminate.
Qed.
Print Assumptions C83_removal_refuted.
(** The level asked for is not the level used. *)
Theorem C83_level_refuted : exists dbg (s : fstate Qnum) s', reach (step dbg) (good dbg) sQ s /\
  py_add_contact s 1 1%Q 1%Q 2 = Ret s' true /\ listed s' 2 = [] /\ step dbg s (@OAddContact Qnum 1 1%Q 1%Q 2) = Undef /\
  In (1%Q, Some "hand_motion_task") (listed s' 1).
Proof.
  exists false, (at_work false), (state_of (at_work false) (py_add_contact (K := Qnum) (at_work false) 1 1%Q 1%Q 2)).
  split; [apply at_work_good|]. split; [apply is_ret_ok; vm_compute; reflexivity|]. split; [vm_compute; reflexivity|]. split; [vm_compute; reflexivity|].
  vm_compute. tauto.
Qed.
Print Assumptions C83_level_refuted.
