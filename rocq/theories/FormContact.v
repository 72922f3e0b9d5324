(** Adding a contact and removing it again. *)
From Coq Require Import String List Arith Bool ZArith Lia Permutation.
From Verif Require Import Scalar Outcome Linalg Constraint Formulation ListUtil FormSpec FormInv FormInvB FormInvC FormOps FormSafe FormSafe2.
Import ListNotations.
Open Scope string_scope.
Open Scope list_scope.
Open Scope nat_scope.

Section Contact.
Context {K : num}.
Variable dbg : bool.
Local Notation fstate := (fstate K).
Local Notation step := (step dbg).
Implicit Types (s : fstate) (h : list (constr K)) (w : K).

Lemma push_filter {A} (p : A -> bool) q lvl e q' : push_level q lvl e = Some q' -> p e = false ->
  map (filter p) q' = map (filter p) q.
Proof.
  intros H Hp. apply push_level_spec in H. destruct H as (x & Hx & ->).
  rewrite map_lupd, filter_app. simpl. rewrite Hp, app_nil_r. apply lupd_same.
  rewrite nth_error_map, Hx. reflexivity.
Qed.

Lemma info_app s l q a x : info s a = Some x -> info (w_hqp (w_heap s (f_heap s ++ l)) q) a = Some x.
Proof.
  intros H. assert (L := info_lt _ _ _ H). unfold info, shapes in *. cbn [f_heap w_hqp w_heap].
  rewrite map_app, nth_error_app1 by (rewrite map_length; exact L). exact H.
Qed.

(** Shapes of the HQP data, from the entries and what is known of their cells. *)
Lemma hqp_shapes_eq s s' : f_hqp s' = f_hqp s ->
  (forall e, In e (concat (f_hqp s)) -> nth_error (shapes s') (snd e) = nth_error (shapes s) (snd e)) ->
  hqp_shapes s' = hqp_shapes s.
Proof.
  intros E H. unfold hqp_shapes, hqp. rewrite E, !map_map. apply map_ext_in. intros l Hl.
  rewrite !map_map. apply map_ext_in. intros e He. unfold deref; simpl. f_equal.
  assert (X := H e). unfold shapes in X. rewrite !nth_error_map in X. apply X.
  apply in_concat. exists l; auto.
Qed.

Theorem add_remove_contact s o x wr wm lvl s1 b :
  invA s -> invB s -> Forall sized (f_heap s) ->
  nth_error (f_objs s) o = Some x -> ~ In (co_name x) (contact_names s) ->
  add_contact s o wr wm lvl = Ret s1 b ->
  exists s2, remove_contact_now dbg s1 (co_name x) = Ret s2 true /\
    hqp_shapes s2 = hqp_shapes s /\ nVar s2 = nVar s /\ nEq s2 = nEq s /\ nIn s2 = nIn s /\
    f_contacts s2 = f_contacts s /\ f_objs s2 = f_objs s /\
    f_motions s2 = f_motions s /\ f_forces s2 = f_forces s /\ f_acts s2 = f_acts s /\ f_meas s2 = f_meas s.
Proof.
  intros HA HB HZ Hx Hfr Hadd.
  assert (HA1 : invA s1).
  { apply (invA_step dbg s (OAddContact o wr wm lvl)); [exact HA|]. simpl. rewrite Hadd. reflexivity. }
  assert (HB1 : invB s1).
  { eapply invB_add_contact; [exact HA|exact HB| |exact Hadd]. rewrite Hx. exact Hfr. }
  assert (Hlvl : lvl < List.length (f_hqp s)).
  { apply add_contact_spec in Hadd. destruct Hadd as (_ & x' & sr & q1 & q2 & q3 & _ & Hr & P1 & _).
    apply push_level_spec in P1. destruct P1 as (y & Hy & _).
    unfold resize_hqp in Hr. repeat (ob Hr). injection Hr as <-. simpl in Hy.
    apply nth_error_Some. congruence. }
  assert (HZ1 : Forall sized (f_heap s1)).
  { destruct (add_contact_total s o wr wm lvl x HA HZ Hx Hlvl) as (s1' & E & S1). congruence. }
  apply add_contact_spec in Hadd. destruct Hadd as (_ & x' & sr & q1 & q2 & q3 & Hx' & Hr & P1 & P2 & P3 & Es1).
  assert (x' = x) by congruence. subst x'.
  assert (HP : preA (w_k s (f_k s + co_nforce x))) by (destruct (invA_preA _ HA); constructor; auto).
  assert (RI := resize_info _ _ HP Hr).
  destruct (resize_fields _ _ HP Hr) as (F1 & F2 & F3 & F4 & F5 & F6 & F7 & F8 & F9 & F10).
  simpl in F1, F2, F3, F4, F5, F6, F7, F8, F9, F10.
  destruct (resize_hqp_spec _ _ HP Hr) as [_ Esr].
  set (l := List.length (f_heap sr)) in *.
  set (cs := [new_eq (co_name x ++ "_motion_task")%string (co_mrows x) (nVar sr)] ++
             [new_ineq (co_name x ++ "_force_constraint")%string (co_frows x) (nVar sr)] ++
             [new_eq (co_name x ++ "_force_reg_task")%string (co_rrows x) (nVar sr)]) in *.
  set (cl := mkCl o (f_k s) l (S l) (S (S l))) in *.
  assert (Hh1 : f_heap s1 = f_heap sr ++ cs) by (rewrite Es1; reflexivity).
  assert (Hq1 : f_hqp s1 = q3) by (rewrite Es1; reflexivity).
  assert (Hc1 : f_contacts s1 = f_contacts s ++ [cl]) by (rewrite Es1; reflexivity).
  assert (Ho1 : f_objs s1 = f_objs s) by (rewrite Es1; exact F5).
  assert (Hk1 : f_k s1 = f_k s + co_nforce x) by (rewrite Es1; exact F9).
  assert (I1 : forall a, a < l -> info s1 a = info s a).
  { intros a La. assert (R := RI a). change (info (w_k s (f_k s + co_nforce x)) a) with (info s a) in R.
    rewrite <- R. unfold info, shapes. rewrite Hh1, map_app, nth_error_app1 by (rewrite map_length; exact La). reflexivity. }
  assert (Im : info s1 l = Some ((co_name x ++ "_motion_task")%string, CEq, co_mrows x)).
  { unfold info, shapes. rewrite Hh1, map_app, nth_error_app2; rewrite map_length; fold l; [|lia].
    rewrite Nat.sub_diag. reflexivity. }
  assert (If : info s1 (S l) = Some ((co_name x ++ "_force_constraint")%string, CIneq, co_frows x)).
  { unfold info, shapes. rewrite Hh1, map_app, nth_error_app2; rewrite map_length; fold l; [|lia].
    replace (S l - l) with 1 by lia. reflexivity. }
  assert (Ir : info s1 (S (S l)) = Some ((co_name x ++ "_force_reg_task")%string, CEq, co_rrows x)).
  { unfold info, shapes. rewrite Hh1, map_app, nth_error_app2; rewrite map_length; fold l; [|lia].
    replace (S (S l) - l) with 2 by lia. reflexivity. }
  assert (Vs : forall e, In e (concat (f_hqp s)) -> snd e < l).
  { intros e He. rewrite F6. assert (V := invA_valid _ HA). unfold valid in V. rewrite Forall_forall in V.
    apply V. exact He. }
  assert (Nc : cl_name s1 cl = co_name x).
  { unfold cl_name, cobj_at. rewrite Ho1. simpl. rewrite Hx. reflexivity. }
  assert (Nold : forall c, cl_name s1 c = cl_name s c).
  { intros c. unfold cl_name, cobj_at. rewrite Ho1. reflexivity. }
  assert (Nfold : forall c, cl_nforce s1 c = cl_nforce s c).
  { intros c. unfold cl_nforce, cobj_at. rewrite Ho1. reflexivity. }
  assert (Hin : In (co_name x) (contact_names s1)).
  { unfold contact_names. rewrite Hc1, map_app. apply in_or_app. right. simpl. left. exact Nc. }
  destruct (remove_now_total dbg s1 (co_name x) HA1 HB1 HZ1 Hin) as (s2 & Erem & _).
  exists s2. split; [exact Erem|].
  destruct (remove_present dbg s1 (co_name x) s2 true HA1 HB1 Hin Erem)
    as (c & s4 & eq' & in' & Hc & En & Hr4 & Es2 & Eeq & Ein).
  (* the contact removed is the one added *)
  assert (Ecl : c = cl).
  { rewrite Hc1 in Hc. apply in_app_or in Hc. destruct Hc as [Hc|[Hc|[]]]; [|auto].
    exfalso. apply Hfr. unfold contact_names. rewrite <- En, Nold. apply in_map. exact Hc. }
  subst c.
  assert (Ecf : cflt s1 (co_name x) (f_contacts s1) = f_contacts s).
  { unfold cflt. rewrite Hc1, filter_app. simpl. rewrite Nc, String.eqb_refl. simpl. rewrite app_nil_r.
    apply filter_all. intros c' Hc'. rewrite Nold. apply negb_true_iff, String.eqb_neq. intros X.
    apply Hfr. rewrite <- X. unfold contact_names. apply in_map. exact Hc'. }
  rewrite Ecf in *.
  assert (Eqf : map (filter (fun e => not3 (co_name x) (nm s1 e))) (f_hqp s1) = f_hqp s).
  { rewrite Hq1.
    rewrite (push_filter _ _ _ _ _ P3).
    2:{ unfold not3, nm; simpl. rewrite (info_name _ _ _ _ _ Ir), String.eqb_refl, !andb_false_r. reflexivity. }
    rewrite (push_filter _ _ _ _ _ P2).
    2:{ unfold not3, nm; simpl. rewrite (info_name _ _ _ _ _ If), String.eqb_refl. simpl. rewrite andb_false_r. reflexivity. }
    rewrite (push_filter _ _ _ _ _ P1).
    2:{ unfold not3, nm; simpl. rewrite (info_name _ _ _ _ _ Im), String.eqb_refl. reflexivity. }
    rewrite F1. rewrite <- (not3_absent s (co_name x) HA HB Hfr) at 2.
    apply map_ext_in. intros le Hle. apply filter_ext_in. intros e He. f_equal. unfold nm.
    assert (Le : snd e < l) by (apply Vs; apply in_concat; eauto).
    destruct (info_valid s (snd e)) as ([[n' kd'] r'] & Hi); [rewrite <- F6; exact Le|].
    rewrite (info_name _ _ _ _ _ Hi). apply (info_name s1 _ _ kd' r'). rewrite I1 by exact Le. exact Hi. }
  rewrite Eqf in *.
  assert (Knf : cl_nforce s1 cl = co_nforce x).
  { rewrite Nfold. unfold cl_nforce, cobj_at, cl; simpl. rewrite Hx. reflexivity. }
  rewrite Knf in Hr4.
  assert (HP4 : preA (w_contacts (w_in (w_eq (w_k (w_hqp s1 (f_hqp s)) (f_k s1 - co_nforce x)) eq') in') (f_contacts s))).
  { destruct (invA_preA _ HA1) as [Q1 Q2 Q3]. constructor; auto.
    cbn [f_heap f_hqp w_contacts w_in w_eq w_k w_hqp]. rewrite Forall_forall. intros e He.
    rewrite Hh1, app_length. fold l. specialize (Vs e He). lia. }
  assert (RI4 := resize_info _ _ HP4 Hr4).
  destruct (resize_hqp_spec _ _ HP4 Hr4) as [_ Es4].
  assert (Ek2 : f_k s2 = f_k s) by (rewrite Es2, Es4; simpl; lia).
  assert (Env2 : f_nv s2 = f_nv s) by (rewrite Es2, Es4, Es1, Esr; reflexivity).
  assert (EnV : nVar s2 = nVar s) by (unfold nVar; congruence).
  assert (Eh2 : f_hqp s2 = f_hqp s) by (rewrite Es2, Es4; reflexivity).
  assert (HA2 : invA s2) by (eapply invA_remove_contact_now; [exact HA1|exact Erem]).
  split; [|split; [exact EnV|]].
  { apply hqp_shapes_eq; [exact Eh2|]. intros e He.
    assert (C2 := ia_cols _ HA2). rewrite Eh2, Forall_forall in C2. destruct (C2 e He) as (n2 & k2 & r2 & X2).
    assert (C0 := ia_cols _ HA). rewrite Forall_forall in C0. destruct (C0 e He) as (n0' & k0 & r0 & X0).
    rewrite X2, X0. rewrite EnV. f_equal. f_equal.
    assert (J2 : info s2 (snd e) = Some (n2, k2, r2)) by (unfold info; rewrite X2; reflexivity).
    assert (J0 : info s (snd e) = Some (n0', k0, r0)) by (unfold info; rewrite X0; reflexivity).
    assert (J : info s2 (snd e) = info s (snd e)).
    { rewrite <- (I1 _ (Vs e He)). transitivity (info s4 (snd e)); [rewrite Es2; reflexivity|].
      rewrite RI4. reflexivity. }
    rewrite J2, J0 in J. injection J; intros; congruence. }
  assert (E0 : nth 0 q3 [] = (if lvl =? 0 then nth 0 (f_hqp s) [] ++ [(wm, l)] else nth 0 (f_hqp s) []) ++ [(n1, S l)]).
  { apply push_level_spec in P1. destruct P1 as (y1 & Hy1 & ->).
    apply push_level_spec in P2. destruct P2 as (y2 & Hy2 & ->).
    apply push_level_spec in P3. destruct P3 as (y3 & Hy3 & ->).
    rewrite F1 in *. destruct (f_hqp s) as [|l0 ls]; [simpl in Hlvl; lia|].
    destruct lvl as [|lv]; simpl in *; injection Hy2 as <-; try (injection Hy1 as <-); reflexivity. }
  assert (Erow : rowsAt s1 is_eq l = co_mrows x /\ rowsAt s1 not_eq (S l) = co_frows x).
  { unfold rowsAt. rewrite Im, If. auto. }
  destruct Erow as [Er1 Er2].
  assert (Hf_eq : f_eq s1 = (if lvl =? 0 then (f_eq s + Z.of_nat (co_mrows x))%Z else f_eq s)) by (rewrite Es1; reflexivity).
  assert (Hf_in : f_in s1 = (f_in s + Z.of_nat (co_frows x))%Z) by (rewrite Es1; reflexivity).
  assert (Hlev0 : level0 s1 = nth 0 q3 []) by (unfold level0; rewrite Hq1; reflexivity).
  assert (Hnot : ~ In l (map snd (nth 0 (f_hqp s) []))).
  { intros X. apply in_map_iff in X. destruct X as (e & Ee & He).
    assert (Y := Vs e). rewrite Ee in Y. assert (l < l); [|lia]. apply Y.
    apply in_concat. exists (nth 0 (f_hqp s) []). split; [|exact He].
    apply nth_In. lia. }
  split; [|split].
  - unfold nEq. rewrite Es2, Es4; simpl. rewrite Eeq, Hf_eq. simpl cl_motion. rewrite Er1.
    rewrite Hlev0, E0. destruct (lvl =? 0).
    + destruct (in_dec Nat.eq_dec l _) as [X|X]; [lia|]. exfalso. apply X.
      rewrite !map_app. apply in_or_app. left. apply in_or_app. right. simpl; auto.
    + destruct (in_dec Nat.eq_dec l _) as [X|X]; [|lia]. exfalso.
      rewrite map_app in X. apply in_app_or in X. destruct X as [X|[X|[]]]; [contradiction|]. simpl in X. lia.
  - unfold nIn. rewrite Es2, Es4; simpl. rewrite Ein, Hf_in. simpl cl_force. rewrite Er2. lia.
  - assert (Er : reindex s4 0 (f_contacts s) = f_contacts s).
    { assert (T := ia_tile _ HA). unfold slots in T.
      apply (reindex_id s4 0 (f_contacts s) (f_k s)).
      assert (Xn : forall c, cl_nforce s4 c = cl_nforce s c).
      { intros c. unfold cl_nforce, cobj_at. rewrite Es4. cbn [f_objs w_Jc w_heap w_contacts w_in w_eq w_k w_hqp].
        rewrite Ho1. reflexivity. }
      erewrite map_ext; [exact T|]. intros c. simpl. rewrite Xn. reflexivity. }
    rewrite Es2, Er. split; [reflexivity|]. rewrite Es4, Es1, Esr. repeat split.
Qed.

End Contact.
