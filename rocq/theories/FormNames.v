(** Renaming tasks, contacts and measured forces: TaskBase::name(string)
    (tasks/task-base.cpp:14), ContactBase::name(string) (contacts/contact-base.cpp:14),
    MeasuredForceBase::name(string) (contacts/measured-force-base.cpp).  Formulation.v takes
    the names as fixed; here every call of its histories may be followed by renamings.

    The formulation keeps references to the objects, so it reads the new name at once; the
    constraints of the HQP data keep the name they were created with: for a task the name of
    its own constraint, fixed by the constructor of the task, for a contact the name of the
    contact when it was added.  Adding a task that was renamed before is adding it under the
    name of its constraint and renaming it: addTask and addActuationTask read c.name() only
    (idf:69,74,133,139). *)
From Coq Require Import String List Arith Bool ZArith Lia Permutation.
From Verif Require Import Scalar Outcome Linalg Constraint Formulation ListUtil FormSpec FormInv FormInvB FormInvC FormOps FormSafe FormSafe2 FormMain.
Import ListNotations.
Open Scope string_scope.
Open Scope list_scope.
Open Scope nat_scope.

Section Names.
Context {K : num}.
Variable dbg : bool.
Local Notation fstate := (fstate K).
Local Notation step := (step dbg).

Inductive nop := NCall (o : fop K) | NTask (id : nat) (n : string) | NContact (o : nat) (n : string) | NMeas (id : nat) (n : string).
Definition ren_t (id : nat) (n : string) (t : tlevel) : tlevel :=
  if tl_task t =? id then mkTl (tl_task t) n (tl_prio t) (tl_cstr t) else t.
Definition ren_c (n : string) (c : cobj K) : cobj K :=
  mkCobj n (co_nforce c) (co_mrows c) (co_frows c) (co_rrows c) (co_checks c) (co_fmin c) (co_fmax c) (co_nf c).
Definition ren_task (s : fstate) (id : nat) (n : string) : fstate :=
  w_acts (w_forces (w_motions s (map (ren_t id n) (f_motions s))) (map (ren_t id n) (f_forces s))) (map (ren_t id n) (f_acts s)).
Definition ren_contact (s : fstate) (o : nat) (n : string) : fstate :=
  match nth_error (f_objs s) o with Some x => w_objs s (lupd (f_objs s) o (ren_c n x)) | None => s end.
Definition ren_meas (s : fstate) (id : nat) (n : string) : fstate :=
  w_meas s (map (fun m => if fst m =? id then (fst m, n) else m) (f_meas s)).
Definition nstep (s : fstate) (o : nop) : outcome fstate (fout K) :=
  match o with
  | NCall o => step s o
  | NTask id n => Ret (ren_task s id n) OutUnit
  | NContact o n => Ret (ren_contact s o n) OutUnit
  | NMeas id n => Ret (ren_meas s id n) OutUnit
  end.

(** * Specification *)
(** Renamings that agree with the names in the HQP data: tasks keep the name of their
    constraint, contacts are renamed while they are absent. *)
Definition harmless (s : fstate) (o : nop) : Prop :=
  match o with
  | NTask id n => forall t, In t (f_motions s ++ f_forces s ++ f_acts s) -> tl_task t = id -> tl_name t = n
  | NContact o _ => ~ In o (contact_objs s)
  | _ => True
  end.
Definition calls (P : fstate -> fop K -> Prop) (s : fstate) (o : nop) : Prop := match o with NCall o => P s o | _ => True end.

(** * Renaming preserves the sizes *)
Lemma rc_objs s o n : map co_nforce (f_objs (ren_contact s o n)) = map co_nforce (f_objs s) /\ List.length (f_objs (ren_contact s o n)) = List.length (f_objs s).
Proof.
  unfold ren_contact. destruct (nth_error (f_objs s) o) as [x|] eqn:E; [|auto]. cbn [f_objs w_objs]. split; [|apply lupd_length].
  rewrite map_lupd. apply lupd_same. rewrite nth_error_map, E. reflexivity.
Qed.
Lemma rc_fields s o n : w_objs (ren_contact s o n) (f_objs s) = s.
Proof. unfold ren_contact. destruct (nth_error _ _); destruct s; reflexivity. Qed.
Lemma rc_field {A} (g : fstate -> A) s o n : (forall s x, g (w_objs s x) = g s) -> g (ren_contact s o n) = g s.
Proof. intros H. unfold ren_contact. destruct (nth_error _ _); auto. Qed.
Lemma rc_nforce s o n c : cl_nforce (ren_contact s o n) c = cl_nforce s c.
Proof.
  destruct (rc_objs s o n) as [E _]. unfold cl_nforce, cobj_at. assert (H := f_equal (fun l => nth_error l (cl_obj c)) E). cbn beta in H.
  rewrite !nth_error_map in H. destruct (nth_error (f_objs (ren_contact s o n)) (cl_obj c)), (nth_error (f_objs s) (cl_obj c)); cbn in H; congruence.
Qed.
Lemma rc_slots s o n : slots (ren_contact s o n) = slots s.
Proof. unfold slots. rewrite (rc_field (@f_contacts K)) by reflexivity. apply map_ext. intros c. rewrite rc_nforce. reflexivity. Qed.
Lemma rc_invA s o n : invA s -> invA (ren_contact s o n).
Proof.
  intros [Hb Hk Hc Ht Ho Hl Hr Hj].
  assert (V : nVar (ren_contact s o n) = nVar s) by (apply (rc_field (@nVar K)); reflexivity).
  assert (S : shapes (ren_contact s o n) = shapes s) by (apply (rc_field shapes); reflexivity).
  constructor; rewrite ?V, ?S, ?rc_slots, ?(proj2 (rc_objs s o n)), ?(rc_field (@f_hqp K)), ?(rc_field (@f_base K)), ?(rc_field (@f_nu K)),
    ?(rc_field (@f_k K)), ?(rc_field (@f_contacts K)), ?(rc_field (@f_Jc K)), ?(rc_field (@f_nv K)) by reflexivity; assumption.
Qed.
Lemma rt_invA s id n : invA s -> invA (ren_task s id n).
Proof. intros [Hb Hk Hc Ht Ho Hl Hr Hj]. constructor; assumption. Qed.
Lemma rm_invA s id n : invA s -> invA (ren_meas s id n).
Proof. intros [Hb Hk Hc Ht Ho Hl Hr Hj]. constructor; assumption. Qed.
Lemma nstep_invA s o s' : invA s -> after (nstep s o) = Some s' -> invA s'.
Proof.
  destruct o as [o|id n|o n|id n]; cbn [nstep after]; intros H E.
  - eapply invA_step; eauto.
  - injection E as <-. apply rt_invA. exact H.
  - injection E as <-. apply rc_invA. exact H.
  - injection E as <-. apply rm_invA. exact H.
Qed.
Lemma nstep_dims s o s' nv nu : dims s nv nu -> after (nstep s o) = Some s' -> dims s' nv nu.
Proof.
  destruct o as [o|id n|o n|id n]; cbn [nstep after]; intros H E.
  - eapply dims_step; eauto.
  - injection E as <-. exact H.
  - injection E as <-. unfold ren_contact. destruct (nth_error _ _); exact H.
  - injection E as <-. exact H.
Qed.
Theorem renamed_columns nv na (M0 : mat K) H0 P s : reach nstep P (init nv na M0 H0) s ->
  nVar s = nv + sum_nat (map snd (slots s)) /\ tiles 0 (slots s) (f_k s) /\
  forall lvl en, In lvl (hqp s) -> In en lvl -> exists c, snd en = Some c /\ mcols (c_mat c) = nVar s.
Proof.
  intros H.
  assert (A : invA s) by (apply (reach_inv nstep P _ (init nv na M0 H0)); [apply invA_init|intros; eapply nstep_invA; eauto|exact H]).
  assert (D : dims s nv (nv - na)).
  { apply (reach_inv nstep P (fun s => dims s nv (nv - na)) (init nv na M0 H0)); [split; reflexivity|intros; eapply nstep_dims; eauto|exact H]. }
  destruct D as [D _]. split; [rewrite (nVar_sum s A), D; reflexivity|]. split; [exact (ia_tile _ A)|].
  intros lvl en Hl He. destruct (no_dangling s A lvl en Hl He) as [c Hc]. exists c. split; [exact Hc|]. eapply columns; eauto.
Qed.

(** * Harmless renamings *)
Lemma ren_id id n (l : list tlevel) : (forall t, In t l -> tl_task t = id -> tl_name t = n) -> map (ren_t id n) l = l.
Proof.
  intros H. rewrite <- (map_id l) at 2. apply map_ext_in. intros t Ht. unfold ren_t. destruct (Nat.eqb_spec (tl_task t) id) as [E|]; [|reflexivity].
  rewrite <- (H t Ht E). destruct t; reflexivity.
Qed.
Lemma rt_id s id n : harmless s (NTask id n) -> ren_task s id n = s.
Proof.
  cbn [harmless]. intros H. unfold ren_task. rewrite !ren_id; [destruct s; reflexivity| | |]; intros t Ht; apply H; rewrite !in_app_iff; auto.
Qed.
Lemma rc_other s o n o' : o' <> o -> nth_error (f_objs (ren_contact s o n)) o' = nth_error (f_objs s) o'.
Proof. intros H. unfold ren_contact. destruct (nth_error (f_objs s) o) eqn:E; [|reflexivity]. cbn [f_objs w_objs]. apply nth_error_lupd_neq. congruence. Qed.
Lemma rc_invB s o n : harmless s (NContact o n) -> invB s -> invB (ren_contact s o n).
Proof.
  cbn [harmless]. intros H [B1 B2 B3 B4 B5].
  assert (HP : f_heap (ren_contact s o n) = f_heap s) by (apply rc_field; reflexivity).
  assert (HQ : f_hqp (ren_contact s o n) = f_hqp s) by (apply rc_field; reflexivity).
  assert (HB : f_base (ren_contact s o n) = f_base s) by (apply rc_field; reflexivity).
  assert (HC : f_contacts (ren_contact s o n) = f_contacts s) by (apply rc_field; reflexivity).
  assert (HT : tasks (ren_contact s o n) = tasks s) by (apply rc_field; reflexivity).
  assert (HI : forall a, info (ren_contact s o n) a = info s a) by (intros a; unfold info, shapes; rewrite HP; reflexivity).
  assert (HL : forall i a, in_level (ren_contact s o n) i a <-> in_level s i a) by (intros i a; unfold in_level; rewrite HQ; tauto).
  constructor.
  - unfold owners. rewrite HQ, HB, HC, HT. exact B1.
  - unfold hqp_names. rewrite HP, HQ. exact B2.
  - rewrite HB. apply HL. exact B3.
  - rewrite HT. intros t Ht. destruct (B4 t Ht) as (X & Y & Z). split; [rewrite HI; exact X|]. split; [exact Y|apply HL; exact Z].
  - rewrite HC. intros c Hc. destruct (B5 c Hc) as [x Hx]. exists x. destruct x as [[[[m nf] mr] fr] rr]. cbn [con_ok] in *.
    destruct Hx as (X1 & X2 & X3 & X4 & (i & X5) & X6 & X7). rewrite !HI. split.
    { rewrite nth_error_map in *. rewrite rc_other; [exact X1|]. intros E. apply H. rewrite <- E. apply in_map. exact Hc. }
    split; [exact X2|]. split; [exact X3|]. split; [exact X4|]. split; [exists i; apply HL; exact X5|]. split; apply HL; assumption.
Qed.
Lemma rc_rows0 s o n p : rows0 (ren_contact s o n) p = rows0 s p.
Proof. unfold rows0, level0. rewrite (rc_field (@f_hqp K)) by reflexivity. f_equal. apply map_ext. intros e. apply rowsAt_info. unfold info, shapes. rewrite (rc_field (@f_heap K)) by reflexivity. reflexivity. Qed.
Lemma nstep_ABC s o s' : invA s -> invB s -> invC s -> harmless s o ->
  calls (fun s o => names_ok s o /\ no_hard_force_removal s o) s o -> after (nstep s o) = Some s' -> invA s' /\ invB s' /\ invC s'.
Proof.
  intros A B C H P E. split; [eapply nstep_invA; eauto|]. destruct o as [o|id n|o n|id n]; cbn [nstep after calls] in *.
  - destruct P as [P1 P2]. split; [eapply invB_step; eauto|eapply invC_step; eauto].
  - injection E as <-. rewrite rt_id by exact H. auto.
  - injection E as <-. split; [apply rc_invB; assumption|]. unfold invC in *. rewrite !rc_rows0, (rc_field (@f_eq K)), (rc_field (@f_in K)) by reflexivity. exact C.
  - injection E as <-. split; [|exact C]. destruct B as [B1 B2 B3 B4 B5]. constructor; assumption.
Qed.
Theorem harmless_counters nv na (M0 : mat K) H0 s :
  reach nstep (fun s o => harmless s o /\ calls (fun s o => names_ok s o /\ no_hard_force_removal s o) s o) (init nv na M0 H0) s ->
  nEq s = Z.of_nat (hard_eq_rows s) /\ nIn s = Z.of_nat (hard_in_rows s).
Proof.
  intros H. apply invC_spec. apply (reach_inv nstep (fun s o => harmless s o /\ calls (fun s o => names_ok s o /\ no_hard_force_removal s o) s o) (fun s => invA s /\ invB s /\ invC s) (init nv na M0 H0) s); [| |exact H].
  - split; [apply invA_init|split; [apply invB_init|apply invC_init]].
  - intros x o y (X & Y & Z) [P1 P2] Hs. eapply nstep_ABC; eauto.
Qed.
Lemma nstep_safe s o s' : invA s -> invB s -> safe s -> harmless s o -> calls (good dbg) s o -> after (nstep s o) = Some s' -> invA s' /\ invB s' /\ safe s'.
Proof.
  intros A B [S1 S2] H P E. split; [eapply nstep_invA; eauto|]. destruct o as [o|id n|o n|id n]; cbn [nstep after calls] in *.
  - destruct P as [P1 P2]. split; [eapply invB_step; eauto|]. eapply fine_after; [|exact E]. apply safe_step; try assumption. split; assumption.
  - injection E as <-. rewrite rt_id by exact H. split; [exact B|split; assumption].
  - injection E as <-. split; [apply rc_invB; assumption|]. split.
    + destruct S1 as [X1 X2 X3 X4 X5]. constructor; rewrite ?(rc_field (@f_heap K)), ?(rc_field (@f_mass K)), ?(rc_field (@f_nle K)), ?(rc_field (@f_hfext K)), ?(rc_field (@f_nv K)), ?(rc_field (@f_nu K)) by reflexivity; assumption.
    + unfold invT in *. rewrite (proj2 (rc_objs s o n)), (rc_field (@f_trans K)) by reflexivity. exact S2.
  - injection E as <-. split; [destruct B as [B1 B2 B3 B4 B5]; constructor; assumption|]. split; [destruct S1; constructor; assumption|exact S2].
Qed.
Lemma harmless_safe nv na (M0 : mat K) H0 s : robot_ok nv M0 H0 ->
  reach nstep (fun s o => harmless s o /\ calls (good dbg) s o) (init nv na M0 H0) s -> invA s /\ invB s /\ safe s.
Proof.
  intros (R1 & R2 & R3) H. apply (reach_inv nstep (fun s o => harmless s o /\ calls (good dbg) s o) (fun s => invA s /\ invB s /\ safe s) (init nv na M0 H0) s); [| |exact H].
  - split; [apply invA_init|split; [apply invB_init|apply safe_init; assumption]].
  - intros x o y (X & Y & Z) [P1 P2] Hs. eapply nstep_safe; eauto.
Qed.
Theorem harmless_defined nv na (M0 : mat K) H0 s o : robot_ok nv M0 H0 ->
  reach nstep (fun s o => harmless s o /\ calls (good dbg) s o) (init nv na M0 H0) s -> calls (op_ok dbg) s o -> nstep s o <> Undef.
Proof.
  intros R H P. destruct (harmless_safe nv na M0 H0 s R H) as (A & B & S). destruct o as [o|id n|o n|id n]; cbn [nstep calls] in *; try discriminate.
  assert (F := safe_step dbg s o A B S P). destruct (step s o); cbn in F; [discriminate|discriminate|contradiction].
Qed.

(** * Removing a task that was renamed while present *)
Lemma erase_absent (s : fstate) n : ~ In n (hqp_names s) -> erase_hqp s n = (s, false).
Proof.
  intros H. assert (F := erase_hqp_found s n). unfold erase_hqp in *. destruct (erase_levels (f_heap s) n (f_hqp s)); [|reflexivity].
  exfalso. apply H. apply F. reflexivity.
Qed.
Lemma take_named n (l : list tlevel) : In n (map tl_name l) -> exists t r, take_task n l = Some (t, r).
Proof.
  induction l as [|a l IH]; cbn; [intros []|]. intros H. destruct (String.eqb_spec (tl_name a) n); [eauto|].
  destruct H as [H|H]; [contradiction|]. destruct (IH H) as (t & r & E). rewrite E. eauto.
Qed.
Lemma take_unnamed n (l : list tlevel) : ~ In n (map tl_name l) -> take_task n l = None.
Proof.
  destruct (take_task n l) as [[t r]|] eqn:E; [|reflexivity]. intros H. apply take_task_spec in E. destruct E as (l1 & l2 & -> & _ & E & _).
  exfalso. apply H. rewrite map_app. apply in_or_app. right. left. exact E.
Qed.
Lemma ren_names id n l m : In m (map tl_name (map (ren_t id n) l)) <-> (m = n /\ In id (map tl_task l)) \/ exists t, In t l /\ tl_task t <> id /\ tl_name t = m.
Proof.
  rewrite map_map. rewrite !in_map_iff. split.
  - intros (t & E & Ht). unfold ren_t in E. destruct (Nat.eqb_spec (tl_task t) id); cbn in E; [left; split; [auto|exists t; auto]|right; exists t; auto].
  - intros [(-> & t & E & Ht)|(t & Ht & Hn & E)]; exists t; unfold ren_t; split; auto.
    + rewrite E, Nat.eqb_refl. reflexivity.
    + destruct (Nat.eqb_spec (tl_task t) id); [contradiction|exact E].
Qed.
Lemma task_in_names (s : fstate) t : invA s -> invB s -> In t (tasks s) -> In (tl_name t) (hqp_names s).
Proof.
  intros A B H. destruct (b_task _ B t H) as ((kd & r & E) & _ & L). rewrite hqp_names_addr. apply in_map_iff. exists (tl_cstr t).
  split; [eapply info_name; exact E|eapply in_level_in; exact L].
Qed.
Theorem renamed_task_debug s t n : dbg = true -> In t (tasks s) -> ~ In n (hqp_names s) ->
  step (ren_task s (tl_task t) n) (ORemTask n) = Undef.
Proof.
  intros -> Ht H. cbn [Formulation.step]. unfold remove_task. rewrite (erase_absent (ren_task s (tl_task t) n) n) by exact H. reflexivity.
Qed.

(** Whatever the list of a renamed task, the first task found under a fresh name is the
    renamed one. *)
Lemma take_ren (s : fstate) id n (l : list tlevel) : invA s -> invB s -> (forall t, In t l -> In t (tasks s)) -> ~ In n (hqp_names s) ->
  match take_task n (map (ren_t id n) l) with
  | Some (x, _) => exists t, In t l /\ tl_task t = id /\ x = ren_t id n t
  | None => ~ In id (map tl_task l)
  end.
Proof.
  intros A B HL H. destruct (take_task n (map (ren_t id n) l)) as [[x r]|] eqn:E.
  - apply take_task_spec in E. destruct E as (l1 & l2 & E & _ & En & _).
    assert (X : In x (map (ren_t id n) l)) by (rewrite E; apply in_elt). apply in_map_iff in X. destruct X as (t & <- & Ht).
    exists t. split; [exact Ht|]. split; [|reflexivity]. unfold ren_t in En. destruct (Nat.eqb_spec (tl_task t) id); [assumption|].
    exfalso. apply H. rewrite <- En. apply task_in_names; auto.
  - intros X. apply take_task_none in E. rewrite Forall_forall in E. apply in_map_iff in X. destruct X as (t & Et & Ht).
    apply (E (ren_t id n t)); [apply in_map; exact Ht|]. unfold ren_t. rewrite Et, Nat.eqb_refl. reflexivity.
Qed.
Lemma ren_rows (s s1 : fstate) id n t : invA s -> invB s -> safe s -> f_heap s1 = f_heap s -> In t (tasks s) -> exists c,
  nth_error (f_heap s) (tl_cstr t) = Some c /\ c_name c = tl_name t /\ (c_kind c = CEq \/ c_kind c = CIneq) /\ tl_rows s1 (ren_t id n t) = Some (c_kind c, mrows (c_mat c)).
Proof.
  intros A B [S _] Hh Ht. destruct (b_task _ B t Ht) as ((kd & r & E) & _ & _).
  assert (N := info_name _ _ _ _ _ E). apply info_lt in E. destruct (nth_error (f_heap s) (tl_cstr t)) as [c|] eqn:Ec; [|apply nth_error_None in Ec; lia].
  exists c. split; [reflexivity|]. split; [unfold name_at in N; rewrite Ec in N; exact N|]. split.
  - assert (Hk := ia_kind _ A). rewrite Forall_forall in Hk. specialize (Hk (shape c)).
    assert (X : In (shape c) (shapes s)) by (unfold shapes; apply in_map; eapply nth_error_In; exact Ec). specialize (Hk X). cbn in Hk.
    destruct (c_kind c); auto. contradiction.
  - unfold tl_rows. rewrite Hh. replace (tl_cstr (ren_t id n t)) with (tl_cstr t) by (unfold ren_t; destruct (_ =? _); reflexivity).
    rewrite Ec. cbn [obind]. rewrite (sized_nth _ _ _ (is_cells _ S) Ec). reflexivity.
Qed.
Lemma hqp_entry (s : fstate) t w c i : invA s -> invB s -> In t (tasks s) -> In (w, Some c) (nth i (hqp s) []) -> c_name c = tl_name t -> nth_error (f_heap s) (tl_cstr t) = Some c.
Proof.
  intros A B Ht Hi Hc. destruct (b_task _ B t Ht) as ((kd & r & E) & _ & L). assert (N := info_name _ _ _ _ _ E).
  assert (X : exists a, In (w, a) (concat (f_hqp s)) /\ nth_error (f_heap s) a = Some c).
  { unfold hqp in Hi. change (@nil (K * option (constr K))) with (map (deref s) []) in Hi. rewrite map_nth in Hi.
    apply in_map_iff in Hi. destruct Hi as ((w' & a) & Ea & Hi). unfold deref in Ea. cbn in Ea. injection Ea as -> Ea. exists a. split; [|exact Ea].
    destruct (Nat.lt_ge_cases i (List.length (f_hqp s))) as [Hl|Hl]; [|rewrite nth_overflow in Hi by exact Hl; destruct Hi].
    apply in_concat. exists (nth i (f_hqp s) []). split; [apply nth_In; exact Hl|exact Hi]. }
  destruct X as (a & Ha & Ea). assert (L' := in_level_in _ _ _ L). apply in_map_iff in L'. destruct L' as ((w' & a') & E' & L'). cbn in E'. subst a'.
  assert (Y : (w, a) = (w', tl_cstr t)).
  { apply (NoDup_map_inj (fun e => name_at (f_heap s) (snd e)) (concat (f_hqp s))); [exact (b_names _ B)|exact Ha|exact L'|].
    cbn. rewrite N. unfold name_at. rewrite Ea. exact Hc. }
  injection Y as _ ->. exact Ea.
Qed.
Definition eq_part (c : constr K) : nat := if is_eq (c_kind c) then mrows (c_mat c) else 0.
Definition in_part (c : constr K) : nat := if is_eq (c_kind c) then 0 else mrows (c_mat c).
Lemma renamed_task_new s t n : dbg = false -> invA s -> invB s -> safe s -> In t (tasks s) -> ~ In n (hqp_names s) -> exists s',
  step (ren_task s (tl_task t) n) (ORemTask n) = Ret s' (OutBool true) /\ hqp s' = hqp s /\ nVar s' = nVar s /\
  ((forall t', In t' (tasks s) -> tl_task t' = tl_task t -> t' = t) -> In t (f_motions s ++ f_acts s) -> tl_prio t = 0 ->
   forall w c, In (w, Some c) (nth 0 (hqp s) []) -> c_name c = tl_name t ->
   nEq s' = (nEq s - Z.of_nat (eq_part c))%Z /\ nIn s' = (nIn s - Z.of_nat (in_part c))%Z).
Proof.
  intros -> A B S Ht H. set (id := tl_task t). cbn [Formulation.step]. unfold remove_task.
  rewrite (erase_absent (ren_task s id n) n) by exact H. change (assert_ false false) with (Some tt). cbv iota beta.
  change (f_motions (ren_task s id n)) with (map (ren_t id n) (f_motions s)).
  change (f_forces (ren_task s id n)) with (map (ren_t id n) (f_forces s)).
  change (f_acts (ren_task s id n)) with (map (ren_t id n) (f_acts s)).
  assert (Im : forall t, In t (f_motions s) -> In t (tasks s)) by (intros; unfold tasks; rewrite !in_app_iff; auto).
  assert (If : forall t, In t (f_forces s) -> In t (tasks s)) by (intros; unfold tasks; rewrite !in_app_iff; auto).
  assert (Ia : forall t, In t (f_acts s) -> In t (tasks s)) by (intros; unfold tasks; rewrite !in_app_iff; auto).
  assert (Pr : forall x, tl_prio (ren_t id n x) = tl_prio x) by (intros x; unfold ren_t; destruct (_ =? _); reflexivity).
  assert (Tm := take_ren s id n (f_motions s) A B Im H). assert (Tf := take_ren s id n (f_forces s) A B If H). assert (Ta := take_ren s id n (f_acts s) A B Ia H).
  destruct (take_task n (map (ren_t id n) (f_motions s))) as [[x r]|].
  { destruct Tm as (t1 & H1 & E1 & ->). rewrite Pr. destruct (ren_rows s (ren_task s id n) id n t1 A B S eq_refl (Im _ H1)) as (c1 & C1 & N1 & K1 & R1).
    destruct (Nat.eqb_spec (tl_prio t1) 0) as [P|P].
    - rewrite R1. destruct K1 as [K1|K1]; rewrite K1; (eexists; split; [reflexivity|]; split; [reflexivity|]; split; [reflexivity|]);
        intros U _ _ w c Hw Hc; assert (t1 = t) by auto; subst t1; rewrite (hqp_entry s t w c 0 A B Ht Hw Hc) in C1; injection C1 as <-;
        unfold eq_part, in_part; rewrite K1; cbn [is_eq]; split; cbn; unfold nEq, nIn; cbn; lia.
    - eexists; split; [reflexivity|]; split; [reflexivity|]; split; [reflexivity|]. intros U _ P0. assert (t1 = t) by auto. subst t1. contradiction. }
  destruct (take_task n (map (ren_t id n) (f_forces s))) as [[x r]|].
  { destruct Tf as (t1 & H1 & E1 & ->). eexists; split; [reflexivity|]; split; [reflexivity|]; split; [reflexivity|].
    intros U Hin _. assert (t1 = t) by auto. subst t1. exfalso. assert (N := task_names_nodup s B). unfold tasks in N. rewrite !map_app in N.
    apply in_app_or in Hin. destruct Hin as [Hin|Hin].
    - apply (NoDup_app_inv _ _ (tl_name t) N); [apply in_map; exact Hin|apply in_or_app; left; apply in_map; exact H1].
    - apply (NoDup_app_inv _ _ (tl_name t) (NoDup_app_r _ _ N)); apply in_map; assumption. }
  destruct (take_task n (map (ren_t id n) (f_acts s))) as [[x r]|].
  { destruct Ta as (t1 & H1 & E1 & ->). rewrite Pr. destruct (ren_rows s (ren_task s id n) id n t1 A B S eq_refl (Ia _ H1)) as (c1 & C1 & N1 & K1 & R1).
    destruct (Nat.eqb_spec (tl_prio t1) 0) as [P|P].
    - rewrite R1. destruct K1 as [K1|K1]; rewrite K1; (eexists; split; [reflexivity|]; split; [reflexivity|]; split; [reflexivity|]);
        intros U _ _ w c Hw Hc; assert (t1 = t) by auto; subst t1; rewrite (hqp_entry s t w c 0 A B Ht Hw Hc) in C1; injection C1 as <-;
        unfold eq_part, in_part; rewrite K1; cbn [is_eq]; split; cbn; unfold nEq, nIn; cbn; lia.
    - eexists; split; [reflexivity|]; split; [reflexivity|]; split; [reflexivity|]. intros U _ P0. assert (t1 = t) by auto. subst t1. contradiction. }
  exfalso. unfold tasks in Ht. rewrite !in_app_iff in Ht. destruct Ht as [Ht|[Ht|Ht]]; apply (in_map tl_task) in Ht; auto.
Qed.
(** Removing it by its old name *)
Definition unnamed (m : string) (e : K * option (constr K)) : bool := match snd e with Some c => negb (String.eqb (c_name c) m) | None => true end.
Lemma drop_hqp (s : fstate) m : invA s -> hqp (w_hqp s (drop m (f_heap s) (f_hqp s))) = map (filter (unnamed m)) (hqp s).
Proof.
  intros A. assert (V := invA_valid _ A). unfold valid in V. unfold hqp, drop. cbn [f_hqp w_hqp f_heap]. rewrite !map_map. apply map_ext_in. intros l Hl.
  change (deref (w_hqp s (map (filter (fun e => negb (String.eqb (name_at (f_heap s) (snd e)) m))) (f_hqp s)))) with (deref s).
  rewrite filter_map. f_equal. apply filter_ext_in. intros e He. unfold unnamed, deref, name_at. cbn [snd].
  rewrite Forall_forall in V. assert (X := V e ltac:(apply in_concat; eauto)). destruct (nth_error (f_heap s) (snd e)) eqn:E; [reflexivity|].
  apply nth_error_None in E. lia.
Qed.
Lemma renamed_task_old s t n : invA s -> invB s -> In t (tasks s) -> ~ In n (hqp_names s) -> exists s',
  step (ren_task s (tl_task t) n) (ORemTask (tl_name t)) = Ret s' (OutBool false) /\
  hqp s' = map (filter (unnamed (tl_name t))) (hqp s) /\ nVar s' = nVar s /\ nEq s' = nEq s /\ nIn s' = nIn s /\
  tasks s' = map (ren_t (tl_task t) n) (tasks s).
Proof.
  intros A B Ht H. set (id := tl_task t). set (m := tl_name t). set (s1 := ren_task s id n).
  assert (Hm : In m (hqp_names s)) by (apply task_in_names; assumption).
  assert (F := proj2 (erase_hqp_found s1 m) Hm). assert (D := erase_hqp_drop s1 m (b_names _ B)).
  cbn [Formulation.step]. unfold remove_task. destruct (erase_hqp s1 m) as [s2 f] eqn:E. cbn [fst snd] in F, D. subst f s2.
  assert (As : assert_ dbg true = Some tt) by (unfold assert_; destruct dbg; reflexivity). rewrite As. cbv iota beta.
  assert (G : forall l, (forall x, In x l -> In x (tasks s)) -> take_task m (map (ren_t id n) l) = None).
  { intros l Hl. apply take_unnamed. intros X. apply ren_names in X. destruct X as [[X _]|(x & Hx & Hd & Hn)].
    - apply H. rewrite <- X. exact Hm.
    - apply Hd. unfold id. f_equal. apply (NoDup_map_inj tl_name (tasks s)); auto. apply task_names_nodup. exact B. }
  change (f_motions (w_hqp s1 (drop m (f_heap s1) (f_hqp s1)))) with (map (ren_t id n) (f_motions s)).
  change (f_forces (w_hqp s1 (drop m (f_heap s1) (f_hqp s1)))) with (map (ren_t id n) (f_forces s)).
  change (f_acts (w_hqp s1 (drop m (f_heap s1) (f_hqp s1)))) with (map (ren_t id n) (f_acts s)).
  rewrite !G; [|intros; unfold tasks; rewrite !in_app_iff; auto..].
  eexists. split; [reflexivity|]. split; [exact (drop_hqp s m A)|]. repeat split; try reflexivity.
  unfold tasks. cbn. rewrite !map_app. reflexivity.
Qed.

(** * Removing a contact that was renamed while present *)
Lemma rc_in s o n x : cobj_at s o = Some x -> cobj_at (ren_contact s o n) o = Some (ren_c n x).
Proof. unfold cobj_at, ren_contact. intros E. rewrite E. cbn [f_objs w_objs]. apply nth_error_lupd_eq. apply nth_error_Some. congruence. Qed.
Lemma rc_name s o n c : cobj_at s o <> None -> cl_name (ren_contact s o n) c = if cl_obj c =? o then n else cl_name s c.
Proof.
  intros H. unfold cl_name. destruct (Nat.eqb_spec (cl_obj c) o) as [E|E].
  - rewrite E. destruct (cobj_at s o) as [x|] eqn:X; [|congruence]. rewrite (rc_in s o n x X). reflexivity.
  - unfold cobj_at. rewrite rc_other by exact E. reflexivity.
Qed.
Lemma renamed_contact_debug s o n : dbg = true -> ~ In (n ++ "_motion_task")%string (hqp_names s) ->
  remove_contact_now dbg (ren_contact s o n) n = Undef.
Proof.
  intros -> H. unfold remove_contact_now. rewrite (rc_field (@f_heap K)), (rc_field (@f_hqp K)) by reflexivity.
  destruct (task_priority (f_heap s) (n ++ "_motion_task")%string (f_hqp s)) as [p|] eqn:E; [|reflexivity].
  exfalso. apply H. unfold hqp_names. clear H. revert p E. induction (f_hqp s) as [|l ls IH]; cbn; intros p E; [discriminate|].
  rewrite map_app. apply in_or_app. destruct (level_has (f_heap s) (n ++ "_motion_task")%string l) eqn:L.
  - left. unfold level_has in L. apply existsb_exists in L. destruct L as (e & He & En). apply String.eqb_eq in En. apply in_map_iff. eauto.
  - right. destruct (task_priority (f_heap s) (n ++ "_motion_task")%string ls) as [q|]; [|discriminate]. eapply IH. reflexivity.
Qed.
Lemma priority_absent h n (ls : list (list (K * nat))) : ~ In n (map (fun e => name_at h (snd e)) (concat ls)) -> task_priority h n ls = None.
Proof.
  induction ls as [|l ls IH]; cbn; intros H; [reflexivity|]. rewrite map_app, in_app_iff in H.
  destruct (level_has h n l) eqn:L.
  - exfalso. apply H. left. unfold level_has in L. apply existsb_exists in L. destruct L as (e & He & En). apply String.eqb_eq in En. apply in_map_iff. eauto.
  - rewrite IH by auto. reflexivity.
Qed.
Lemma contact_obj_unique (s : fstate) c c' : invA s -> invB s -> In c (f_contacts s) -> In c' (f_contacts s) -> cl_obj c = cl_obj c' -> c = c'.
Proof.
  intros A B H H' E. apply (NoDup_map_inj (cl_name s) (f_contacts s)); auto; [exact (contact_names_nodup s A B)|]. unfold cl_name. rewrite E. reflexivity.
Qed.
Lemma names_from_contact (s : fstate) c : invA s -> invB s -> In c (f_contacts s) -> In (cl_name s c ++ "_motion_task")%string (hqp_names s).
Proof. intros A B H. apply (contact_in_names s (cl_name s c) A B). unfold contact_names. apply in_map. exact H. Qed.
Definition fresh (s : fstate) (n : string) : Prop :=
  ~ In (n ++ "_motion_task")%string (hqp_names s) /\ ~ In (n ++ "_force_constraint")%string (hqp_names s) /\ ~ In (n ++ "_force_reg_task")%string (hqp_names s).
Lemma renamed_contact_new s o n x d : dbg = false -> invA s -> invB s -> safe s -> In o (contact_objs s) -> cobj_at s o = Some x -> fresh s n -> (n0 <? d)%num = false -> exists s',
  step (ren_contact s o n) (ORemContact n d) = Ret s' (OutBool false) /\ hqp_names s' = hqp_names s /\
  drops_one (eq o) (contact_objs s) (contact_objs s') /\ nVar s' + co_nforce x = nVar s.
Proof.
  intros -> A B S Ho Hx (F1 & F2 & F3) Hd. set (s1 := ren_contact s o n).
  assert (HP : f_heap s1 = f_heap s) by (apply (rc_field (@f_heap K)); reflexivity).
  assert (HQ : f_hqp s1 = f_hqp s) by (apply (rc_field (@f_hqp K)); reflexivity).
  assert (HC : f_contacts s1 = f_contacts s) by (apply (rc_field (@f_contacts K)); reflexivity).
  assert (Hk : f_k s1 = f_k s) by (apply (rc_field (@f_k K)); reflexivity).
  assert (Hv : f_nv s1 = f_nv s) by (apply (rc_field (@f_nv K)); reflexivity).
  assert (HN : hqp_names s1 = hqp_names s) by (unfold hqp_names; rewrite HP, HQ; reflexivity).
  assert (A1 : invA s1) by (apply rc_invA; exact A).
  cbn [Formulation.step]. unfold remove_contact. rewrite Hd. unfold remove_contact_now.
  rewrite HP, HQ, (priority_absent _ _ _ F1). change (assert_ false false) with (Some tt). cbn [obind].
  rewrite (erase_absent s1) by (rewrite HN; exact F1). change (assert_ false false) with (Some tt). cbn [obind].
  rewrite (erase_absent s1) by (rewrite HN; exact F2). change (assert_ false false) with (Some tt). cbn [obind].
  rewrite (erase_absent s1) by (rewrite HN; exact F3). change (assert_ false false) with (Some tt). cbn [obind].
  assert (Hne : cobj_at s o <> None) by congruence.
  assert (T : exists c rest, take_contact s1 n (f_contacts s1) = Some (c, rest) /\ cl_obj c = o /\ In c (f_contacts s) /\ drops_one (eq o) (contact_objs s) (map cl_obj rest)).
  { destruct (take_contact s1 n (f_contacts s1)) as [[c rest]|] eqn:T.
    - exists c, rest. split; [reflexivity|]. apply take_contact_spec in T. destruct T as (l1 & l2 & El & -> & En & _). rewrite HC in El.
      assert (Hc : In c (f_contacts s)) by (rewrite El; apply in_elt).
      assert (Eo : cl_obj c = o).
      { unfold s1 in En. rewrite rc_name in En by exact Hne. destruct (Nat.eqb_spec (cl_obj c) o); [assumption|].
        exfalso. apply F1. rewrite <- En. apply names_from_contact; assumption. }
      split; [exact Eo|]. split; [exact Hc|]. unfold contact_objs. rewrite El. exists (map cl_obj l1), o, (map cl_obj l2). rewrite !map_app. cbn [map]. rewrite Eo. auto.
    - exfalso. apply take_contact_none in T. rewrite HC, Forall_forall in T. unfold contact_objs in Ho. apply in_map_iff in Ho. destruct Ho as (c & Eo & Hc).
      apply (T c Hc). unfold s1. rewrite rc_name by exact Hne. rewrite Eo, Nat.eqb_refl. reflexivity. }
  destruct T as (c & rest & T & Eo & Hc & Hdrop). rewrite T.
  destruct (b_con _ B c Hc) as ([[[[m nf] mr] fr] rr] & C). destruct C as (_ & _ & If & _). apply info_lt in If.
  destruct (nth_error (f_heap s) (cl_force c)) as [fc|] eqn:Ec; [|apply nth_error_None in Ec; lia].
  assert (Sz := is_cells _ (proj1 S)). cbn [obind f_heap w_k]. rewrite HP, Ec. cbn [obind]. rewrite (sized_nth _ _ _ Sz Ec). cbn [obind].
  match goal with |- context [resize_hqp ?X] => set (s3 := X) in * end.
  assert (P3 : preA s3) by (destruct (invA_preA _ A1); constructor; assumption).
  destruct (resize_total s3 P3) as (s4 & E4 & _); [change (f_heap s3) with (f_heap s1); rewrite HP; exact Sz|].
  rewrite E4. cbn [obind]. eexists. split; [reflexivity|].
  destruct (resize_fields s3 s4 P3 E4) as (Q1 & _ & Q3 & _ & _ & _ & _ & _ & Qk & Qv). split; [|split].
  - unfold hqp_names. cbn [f_heap f_hqp w_contacts]. rewrite Q1. change (f_hqp s3) with (f_hqp s1). rewrite HQ. apply map_ext. intros e.
    rewrite (resize_name s3 s4 P3 E4). change (f_heap s3) with (f_heap s1). rewrite HP. reflexivity.
  - unfold contact_objs at 2. cbn [f_contacts w_contacts]. rewrite reindex_shape by reflexivity. rewrite Q3. exact Hdrop.
  - unfold nVar. cbn [f_nv f_k w_contacts]. rewrite Qk, Qv. change (f_nv s3) with (f_nv s1). change (f_k s3) with (f_k s1 - cl_nforce s1 c). rewrite Hv, Hk.
    unfold s1. rewrite rc_nforce. assert (L := slot_bound s c A Hc). unfold cl_nforce in *. rewrite Eo, Hx in *. lia.
Qed.
Lemma renamed_contact_old s o n x d : invA s -> invB s -> In o (contact_objs s) -> cobj_at s o = Some x -> fresh s n -> (n0 <? d)%num = false -> exists s',
  step (ren_contact s o n) (ORemContact (co_name x) d) = Ret s' (OutBool false) /\
  hqp s' = map (filter (fun e => unnamed (co_name x ++ "_motion_task") e && (unnamed (co_name x ++ "_force_constraint") e && unnamed (co_name x ++ "_force_reg_task") e))) (hqp s) /\
  contact_objs s' = contact_objs s /\ nVar s' = nVar s /\ nEq s' = nEq s /\ nIn s' = nIn s.
Proof.
  intros A B Ho Hx (F1 & _) Hd. set (s1 := ren_contact s o n). set (m := co_name x).
  assert (HP : f_heap s1 = f_heap s) by (apply (rc_field (@f_heap K)); reflexivity).
  assert (HQ : f_hqp s1 = f_hqp s) by (apply (rc_field (@f_hqp K)); reflexivity).
  assert (HC : f_contacts s1 = f_contacts s) by (apply (rc_field (@f_contacts K)); reflexivity).
  assert (HN : hqp_names s1 = hqp_names s) by (unfold hqp_names; rewrite HP, HQ; reflexivity).
  assert (A1 : invA s1) by (apply rc_invA; exact A).
  assert (Hne : cobj_at s o <> None) by congruence.
  assert (Hm : In m (contact_names s)).
  { unfold contact_objs in Ho. apply in_map_iff in Ho. destruct Ho as (c & Eo & Hc). unfold contact_names. apply in_map_iff. exists c. split; [|exact Hc].
    unfold cl_name. rewrite Eo, Hx. reflexivity. }
  destruct (contact_in_names s m A B Hm) as (Nm & Nf & Nr). assert (Hdn : NoDup (hqp_names s1)) by (rewrite HN; exact (b_names _ B)).
  rewrite <- HN in Nm, Nf, Nr.
  assert (T : take_contact s1 m (f_contacts s1) = None).
  { destruct (take_contact s1 m (f_contacts s1)) as [[c rest]|] eqn:T; [exfalso|reflexivity]. apply take_contact_spec in T. destruct T as (l1 & l2 & El & _ & En & _).
    assert (Hc : In c (f_contacts s)) by (rewrite <- HC, El; apply in_elt). unfold s1 in En. rewrite rc_name in En by exact Hne. destruct (Nat.eqb_spec (cl_obj c) o) as [E|E].
    - apply F1. rewrite En, <- HN. exact Nm.
    - apply E. unfold contact_objs in Ho. apply in_map_iff in Ho. destruct Ho as (c' & Eo & Hc'). rewrite <- Eo. f_equal.
      apply (NoDup_map_inj (cl_name s) (f_contacts s)); auto; [exact (contact_names_nodup s A B)|]. rewrite En. unfold cl_name. rewrite Eo, Hx. reflexivity. }
  assert (E3 := erase3_drop s1 m Hdn). unfold erase3 in E3.
  cbn [Formulation.step]. unfold remove_contact. rewrite Hd. unfold remove_contact_now.
  destruct (priority_found (f_heap s1) (m ++ "_motion_task")%string (f_hqp s1) Nm) as [p Hp]. rewrite Hp. cbn [obind].
  assert (As : assert_ dbg true = Some tt) by (unfold assert_; destruct dbg; reflexivity).
  assert (B1 := proj2 (erase_hqp_found s1 (m ++ "_motion_task")%string) Nm).
  assert (D1 := erase_nodup s1 (m ++ "_motion_task")%string Hdn).
  assert (Nf1 := erase_keeps s1 (m ++ "_motion_task")%string _ Hdn (fun X => sfx_mf m m (eq_sym X)) Nf).
  assert (Nr1 := erase_keeps s1 (m ++ "_motion_task")%string _ Hdn (fun X => sfx_mr m m (eq_sym X)) Nr).
  destruct (erase_hqp s1 (m ++ "_motion_task")%string) as [s2 b1]. cbn [fst snd] in *. subst b1. rewrite As. cbn [obind].
  assert (B2 := proj2 (erase_hqp_found s2 (m ++ "_force_constraint")%string) Nf1).
  assert (Nr2 := erase_keeps s2 (m ++ "_force_constraint")%string _ D1 (fun X => sfx_fr m m (eq_sym X)) Nr1).
  destruct (erase_hqp s2 (m ++ "_force_constraint")%string) as [s3 b2]. cbn [fst snd] in *. subst b2. rewrite As. cbn [obind].
  assert (B3 := proj2 (erase_hqp_found s3 (m ++ "_force_reg_task")%string) Nr2).
  destruct (erase_hqp s3 (m ++ "_force_reg_task")%string) as [s4 b3]. cbn [fst snd] in *. subst b3. rewrite As. cbn [obind].
  rewrite (take_contact_objs s1 s4) by (rewrite E3; reflexivity). replace (f_contacts s4) with (f_contacts s1) by (rewrite E3; reflexivity).
  rewrite T. cbn [obind]. rewrite E3. eexists. split; [reflexivity|].
  assert (A4 : invA s4) by (rewrite E3, <- (erase3_drop s1 m Hdn); apply erase3_inv; exact A1).
  split; [|split; [|repeat split]].
  - unfold hqp. cbn [f_hqp w_hqp w_contacts]. rewrite HQ, !map_map. apply map_ext_in. intros l Hl.
    match goal with |- map ?f _ = _ => change f with (deref s1) end.
    replace (deref s1) with (deref s) by (unfold deref; rewrite HP; reflexivity). rewrite filter_map. f_equal. apply filter_ext_in. intros e He.
    unfold not3, nm, unnamed, deref, name_at. cbn [snd]. rewrite HP.
    assert (V := invA_valid _ A). unfold valid in V. rewrite Forall_forall in V. assert (X := V e ltac:(apply in_concat; eauto)).
    destruct (nth_error (f_heap s) (snd e)) eqn:E; [reflexivity|]. apply nth_error_None in E. lia.
  - unfold contact_objs. cbn [f_contacts w_contacts w_hqp]. rewrite reindex_shape by reflexivity. rewrite HC. reflexivity.
  - unfold nVar. cbn. rewrite <- (rc_field (@f_nv K) s o n), <- (rc_field (@f_k K) s o n) by reflexivity. reflexivity.
  - unfold nEq. cbn. apply (rc_field (@f_eq K)). reflexivity.
  - unfold nIn. cbn. apply (rc_field (@f_in K)). reflexivity.
Qed.

(** * Over all histories *)
Definition hgood (s : fstate) (o : nop) : Prop := harmless s o /\ calls (good dbg) s o.
Theorem renamed_task nv na (M0 : mat K) H0 s t n : robot_ok nv M0 H0 -> reach nstep hgood (init nv na M0 H0) s ->
  In t (f_motions s ++ f_forces s ++ f_acts s) -> ~ In n (hqp_names s) ->
  exists s1, nstep s (NTask (tl_task t) n) = Ret s1 OutUnit /\ hqp s1 = hqp s /\
  (dbg = true -> nstep s1 (NCall (ORemTask n)) = Undef) /\
  (dbg = false -> exists s', nstep s1 (NCall (ORemTask n)) = Ret s' (OutBool true) /\ hqp s' = hqp s /\ nVar s' = nVar s /\
    ((forall t', In t' (f_motions s ++ f_forces s ++ f_acts s) -> tl_task t' = tl_task t -> t' = t) -> In t (f_motions s ++ f_acts s) -> tl_prio t = 0 ->
     forall w c, In (w, Some c) (nth 0 (hqp s) []) -> c_name c = tl_name t ->
     nEq s' = (nEq s - Z.of_nat (eq_part c))%Z /\ nIn s' = (nIn s - Z.of_nat (in_part c))%Z)) /\
  (exists s', nstep s1 (NCall (ORemTask (tl_name t))) = Ret s' (OutBool false) /\
    hqp s' = map (filter (unnamed (tl_name t))) (hqp s) /\ nVar s' = nVar s /\ nEq s' = nEq s /\ nIn s' = nIn s /\
    List.length (f_motions s' ++ f_forces s' ++ f_acts s') = List.length (f_motions s ++ f_forces s ++ f_acts s)).
Proof.
  intros R H Ht Hn. destruct (harmless_safe nv na M0 H0 s R H) as (A & B & S). eexists. split; [reflexivity|]. split; [reflexivity|]. split; [|split].
  - intros D. exact (renamed_task_debug s t n D Ht Hn).
  - intros D. exact (renamed_task_new s t n D A B S Ht Hn).
  - destruct (renamed_task_old s t n A B Ht Hn) as (s' & E1 & E2 & E3 & E4 & E5 & E6). exists s'. repeat (split; [assumption|]).
    change (f_motions s' ++ f_forces s' ++ f_acts s') with (tasks s'). rewrite E6. apply map_length.
Qed.
Theorem renamed_contact nv na (M0 : mat K) H0 s o x n d : robot_ok nv M0 H0 -> reach nstep hgood (init nv na M0 H0) s ->
  In o (contact_objs s) -> nth_error (f_objs s) o = Some x -> fresh s n -> (n0 <? d)%num = false ->
  exists s1, nstep s (NContact o n) = Ret s1 OutUnit /\ hqp s1 = hqp s /\
  (dbg = true -> nstep s1 (NCall (ORemContact n d)) = Undef) /\
  (dbg = false -> exists s', nstep s1 (NCall (ORemContact n d)) = Ret s' (OutBool false) /\ hqp_names s' = hqp_names s /\
    drops_one (eq o) (contact_objs s) (contact_objs s') /\ nVar s' + co_nforce x = nVar s) /\
  (exists s', nstep s1 (NCall (ORemContact (co_name x) d)) = Ret s' (OutBool false) /\
    hqp s' = map (filter (fun e => unnamed (co_name x ++ "_motion_task") e && (unnamed (co_name x ++ "_force_constraint") e && unnamed (co_name x ++ "_force_reg_task") e))) (hqp s) /\
    contact_objs s' = contact_objs s /\ nVar s' = nVar s /\ nEq s' = nEq s /\ nIn s' = nIn s).
Proof.
  intros R H Ho Hx Hn Hd. destruct (harmless_safe nv na M0 H0 s R H) as (A & B & S). eexists. split; [reflexivity|]. split; [|split; [|split]].
  - unfold hqp, deref. rewrite (rc_field (@f_hqp K)), (rc_field (@f_heap K)) by reflexivity. reflexivity.
  - intros D. cbn [nstep Formulation.step]. unfold remove_contact. rewrite Hd, (renamed_contact_debug s o n D (proj1 Hn)). reflexivity.
  - intros D. exact (renamed_contact_new s o n x d D A B S Ho Hx Hn Hd).
  - exact (renamed_contact_old s o n x d A B Ho Hx Hn Hd).
Qed.
(** Measured forces: a renaming is seen by removeMeasuredForce only, and only for this force. *)
Theorem renamed_measured (s : fstate) id n : exists s1, nstep s (NMeas id n) = Ret s1 OutUnit /\ hqp s1 = hqp s /\ nVar s1 = nVar s /\ nEq s1 = nEq s /\ nIn s1 = nIn s /\
  map fst (f_meas s1) = map fst (f_meas s) /\
  forall m, (exists s', nstep s1 (NCall (ORemMeas m)) = Ret s' (OutBool true)) <->
    (m = n /\ In id (map fst (f_meas s))) \/ exists j, j <> id /\ In (j, m) (f_meas s).
Proof.
  exists (ren_meas s id n). split; [reflexivity|]. repeat (split; [reflexivity|]). split.
  - cbn [ren_meas w_meas f_meas]. rewrite map_map. apply map_ext. intros [j a]. cbn [fst]. destruct (j =? id); reflexivity.
  - intros m.
    assert (EX : forall l : list (nat * string), (exists l', take_meas m l = Some l') <-> exists j : nat, In (j, m) l).
    { induction l as [|[j a] l IH]; cbn [take_meas].
      - split; [intros (l' & E); discriminate|intros (j & [])].
      - cbn [snd]. destruct (String.eqb_spec a m) as [->|Na].
        + split; [exists j; left; reflexivity|intros _; eexists; reflexivity].
        + destruct (take_meas m l) as [l2|]; cbn [obind].
          * split; [intros _; destruct (proj1 IH ltac:(eauto)) as [k Hk]; exists k; right; exact Hk|intros _; eauto].
          * split; [intros (l' & E); discriminate|]. intros (k & [Hk|Hk]); [congruence|]. destruct (proj2 IH) as [l' E]; [eauto|discriminate]. }
    assert (RM : (exists s', nstep (ren_meas s id n) (NCall (ORemMeas m)) = Ret s' (OutBool true)) <-> exists l', take_meas m (f_meas (ren_meas s id n)) = Some l').
    { cbn [nstep Formulation.step]. unfold remove_meas. destruct (take_meas m (f_meas (ren_meas s id n))) as [l'|].
      - split; intros _; eauto.
      - split; intros (x & E); discriminate. }
    rewrite RM, EX. cbn [ren_meas w_meas f_meas]. split.
    + intros (j & Hj). apply in_map_iff in Hj. destruct Hj as ([k a] & E & Hk). cbn [fst] in E. destruct (Nat.eqb_spec k id) as [->|Nk]; injection E as <- <-.
      * left. split; [reflexivity|]. apply (in_map fst) in Hk. exact Hk.
      * right. exists k. auto.
    + intros [(-> & Hi)|(j & Nj & Hj)].
      * apply in_map_iff in Hi. destruct Hi as ([k a] & E & Hk). cbn [fst] in E. subst k. exists id. apply in_map_iff. exists (id, a). cbn [fst]. rewrite Nat.eqb_refl. auto.
      * exists j. apply in_map_iff. exists (j, m). cbn [fst]. apply Nat.eqb_neq in Nj. rewrite Nj. auto.
Qed.
End Names.
