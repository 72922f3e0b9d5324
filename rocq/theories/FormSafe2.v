(** Calls with well-formed arguments never fail an assertion nor run into
    undefined behaviour, and keep every size consistent. *)
From Coq Require Import String List Arith Bool ZArith Lia Permutation.
From Verif Require Import Scalar Outcome Linalg Constraint Formulation ListUtil FormSpec FormInv FormInvB FormInvC FormOps FormSafe.
Import ListNotations.
Open Scope string_scope.
Open Scope list_scope.
Open Scope nat_scope.

Section Safe2.
Context {K : num}.
Variable dbg : bool.
Local Notation fstate := (fstate K).
Local Notation step := (step dbg).
Implicit Types (s : fstate) (h : list (constr K)) (w : K).

(** Well-formed calls.  Levels exist, objects exist, what is removed is present
    when assertions are on, the data returned by tasks and contacts have the
    announced sizes, and solutions have nVar() entries. *)
Definition obj_name s (o : nat) : string :=
  match nth_error (f_objs s) o with Some x => co_name x | None => "" end.
Definition pending_ok s (t : K) : Prop :=
  forall c, In c (f_trans s) -> (tr_t0 c <=? t)%num = true /\
    ((t <=? tr_t1 c)%num = false -> In (obj_name s (tr_obj c)) (contact_names s)).
Definition op_ok s (o : fop K) : Prop :=
  match o with
  | OSetFMin o _ | OSetFMax o _ => o < List.length (f_objs s)
  | OAddMotion _ _ _ _ _ l _ | OAddForce _ _ _ _ _ l _ | OAddAct _ _ _ _ _ l _ => l < List.length (f_hqp s)
  | OAddContact o _ _ l => o < List.length (f_objs s) /\ l < List.length (f_hqp s)
  | ORemTask n => dbg = true -> In n (hqp_names s)
  | ORemContact n d => dbg = true -> (n0 <? d)%num = false -> In n (contact_names s)
  | OCompute t e => (dbg = true -> pending_ok s t) /\
      forall s1, run_transitions dbg (w_t s t) [] (f_trans s) = Ret s1 tt -> env_ok s1 e
  | OGet g x => (f_nv s <= vlen x /\ f_k s <= vlen x) /\
      match g with GForceOf _ => f_dec s = true -> vlen (f_f s) = f_k s | _ => True end
  | _ => True
  end.

Definition rdata s := (f_nv s, f_nu s, f_mass s, f_nle s, f_hfext s).
Definition invT s : Prop := Forall (fun c => tr_obj c < List.length (f_objs s)) (f_trans s).

Lemma invS_rdata s s' : invS s -> rdata s' = rdata s -> Forall sized (f_heap s') -> invS s'.
Proof.
  intros [C1 C2 C3 C4 C5] E Hs. unfold rdata in E. injection E as E1 E2 E3 E4 E5.
  constructor; rewrite ?E1, ?E2, ?E3, ?E4, ?E5; auto.
Qed.

Lemma resize_rdata s s' : resize_hqp s = Some s' -> rdata s' = rdata s /\ f_trans s' = f_trans s /\ f_objs s' = f_objs s.
Proof. unfold resize_hqp. intros H. repeat (ob H). injection H as <-. auto. Qed.
Lemma erase_rdata s n : rdata (fst (erase_hqp s n)) = rdata s /\ f_trans (fst (erase_hqp s n)) = f_trans s.
Proof. unfold erase_hqp. destruct (erase_levels _ _ _); auto. Qed.
Lemma erase3_rdata s n : rdata (erase3 s n) = rdata s /\ f_trans (erase3 s n) = f_trans s.
Proof.
  unfold erase3.
  destruct (erase_rdata s (n ++ "_motion_task")) as [A1 B1].
  set (s1 := fst (erase_hqp s _)) in *.
  destruct (erase_rdata s1 (n ++ "_force_constraint")) as [A2 B2].
  set (s2 := fst (erase_hqp s1 _)) in *.
  destruct (erase_rdata s2 (n ++ "_force_reg_task")) as [A3 B3]. split; congruence.
Qed.
Lemma remove_now_rdata s n s' b : remove_contact_now dbg s n = Ret s' b ->
  rdata s' = rdata s /\ f_trans s' = f_trans s /\ f_objs s' = f_objs s.
Proof.
  intros H. apply remove_contact_now_spec in H. destruct (erase3_rdata s n) as [A B].
  destruct (erase3_frame s n) as (_ & _ & C & _).
  destruct H as [(_ & _ & ->)|(c & r & s4 & mr & fr & _ & _ & _ & Hr & ->)].
  - auto.
  - apply resize_rdata in Hr. destruct Hr as (R1 & R2 & R3).
    change (rdata (w_contacts s4 (reindex s4 0 r))) with (rdata s4).
    change (f_trans (w_contacts s4 (reindex s4 0 r))) with (f_trans s4).
    change (f_objs (w_contacts s4 (reindex s4 0 r))) with (f_objs s4).
    rewrite R1, R2, R3. auto.
Qed.

(** Removal in release builds is total too: absent contacts change nothing. *)
Lemma remove_now_safe s n : invA s -> invB s -> Forall sized (f_heap s) ->
  (dbg = true -> In n (contact_names s)) ->
  exists s' b, remove_contact_now dbg s n = Ret s' b /\ Forall sized (f_heap s').
Proof.
  intros HA HB HS Hd.
  destruct (in_dec string_dec n (contact_names s)) as [Hi|Hi].
  - destruct (remove_now_total dbg s n HA HB HS Hi) as (s' & E & S'). eauto.
  - assert (D : dbg = false) by (destruct dbg; auto; exfalso; auto).
    assert (E : exists s' b, remove_contact_now dbg s n = Ret s' b).
    { unfold remove_contact_now, assert_. rewrite D.
      assert (T := take_contact_names s n HA HB).
      destruct (task_priority (f_heap s) (n ++ "_motion_task") (f_hqp s)); cbn [obind];
      (destruct (erase_hqp s (n ++ "_motion_task")) as [s1 b1] eqn:E1;
       destruct (erase_hqp s1 (n ++ "_force_constraint")) as [s2 b2] eqn:E2;
       destruct (erase_hqp s2 (n ++ "_force_reg_task")) as [s3 b3] eqn:E3;
       assert (G1 := erase_frame s (n ++ "_motion_task")); rewrite E1 in G1; simpl fst in G1;
       assert (G2 := erase_frame s1 (n ++ "_force_constraint")); rewrite E2 in G2; simpl fst in G2;
       assert (G3 := erase_frame s2 (n ++ "_force_reg_task")); rewrite E3 in G3; simpl fst in G3;
       cbn [obind];
       destruct G1 as (_ & G1c & G1o & _); destruct G2 as (_ & G2c & G2o & _); destruct G3 as (_ & G3c & G3o & _);
       rewrite (take_contact_objs s s3) by congruence;
       rewrite G3c, G2c, G1c;
       destruct (take_contact s n (f_contacts s)) as [[c r]|];
       [destruct T as (_ & Tc & Tn); exfalso; apply Hi; unfold contact_names; apply in_map_iff; eauto
       |cbn [obind]; eauto]). }
    destruct E as (s' & b & E). exists s', b. split; [exact E|].
    destruct (remove_absent dbg s n s' b HA HB Hi E) as [-> _]. exact HS.
Qed.

Lemma set_fmax_safe s o f : o < List.length (f_objs s) ->
  exists s', (obj_set_fmax s o f = Ret s' true \/ obj_set_fmax s o f = Exc s') /\
    f_heap s' = f_heap s /\ rdata s' = rdata s /\ f_trans s' = f_trans s /\
    map oshape (f_objs s') = map oshape (f_objs s) /\ f_t s' = f_t s.
Proof.
  intros Ho. unfold obj_set_fmax, cobj_at. destruct (nth_error (f_objs s) o) as [x|] eqn:E; [|apply nth_error_None in E; lia].
  destruct (_ || _).
  - eexists; split; [left; reflexivity|]. repeat split. simpl. eapply oshape_upd; [exact E|reflexivity].
  - eexists; split; [right; reflexivity|]. repeat split.
Qed.
Lemma set_fmin_safe s o f : o < List.length (f_objs s) ->
  exists s', (obj_set_fmin s o f = Ret s' true \/ obj_set_fmin s o f = Exc s') /\
    f_heap s' = f_heap s /\ rdata s' = rdata s /\ f_trans s' = f_trans s /\
    map oshape (f_objs s') = map oshape (f_objs s) /\ f_t s' = f_t s.
Proof.
  intros Ho. unfold obj_set_fmin, cobj_at. destruct (nth_error (f_objs s) o) as [x|] eqn:E; [|apply nth_error_None in E; lia].
  destruct (_ || _).
  - eexists; split; [left; reflexivity|]. repeat split. simpl. eapply oshape_upd; [exact E|reflexivity].
  - eexists; split; [right; reflexivity|]. repeat split.
Qed.

Lemma obj_name_shape s s' o : map oshape (f_objs s') = map oshape (f_objs s) -> obj_name s' o = obj_name s o.
Proof.
  intros E. unfold obj_name. assert (H := f_equal (fun l => nth_error l o) E). simpl in H.
  rewrite !nth_error_map in H. destruct (nth_error (f_objs s') o), (nth_error (f_objs s) o); simpl in H; try discriminate; auto.
  unfold oshape in H. injection H; auto.
Qed.

Lemma transitions_safe todo : forall s dn,
  invA s -> invB s -> Forall sized (f_heap s) ->
  Forall (fun c => tr_obj c < List.length (f_objs s)) (dn ++ todo) ->
  (dbg = true -> forall c, In c todo -> (tr_t0 c <=? f_t s)%num = true /\
     ((f_t s <=? tr_t1 c)%num = false -> In (obj_name s (tr_obj c)) (contact_names s))) ->
  f_trans s = dn ++ todo ->
  exists s', (run_transitions dbg s dn todo = Ret s' tt \/ run_transitions dbg s dn todo = Exc s') /\
    Forall sized (f_heap s') /\ rdata s' = rdata s /\ invT s'.
Proof.
  induction todo as [|c todo IH]; intros s dn HA HB HS Hob Hp Ht; simpl.
  - exists s. split; [auto|]. split; [exact HS|]. split; [reflexivity|]. unfold invT. rewrite Ht. exact Hob.
  - assert (Hc : tr_obj c < List.length (f_objs s)).
    { rewrite Forall_forall in Hob. apply Hob. apply in_elt. }
    assert (Ea : exists u, assert_ dbg (tr_t0 c <=? f_t s)%num = Some u).
    { unfold assert_, guard. destruct dbg eqn:D; [|eauto].
      destruct (Hp eq_refl c (or_introl eq_refl)) as [-> _]. eauto. }
    destruct Ea as [u Ea]. rewrite Ea.
    destruct ((f_t s <=? tr_t1 c)%num) eqn:Et.
    + match goal with |- context [obj_set_fmax s (tr_obj c) ?f] =>
        destruct (set_fmax_safe s (tr_obj c) f Hc) as (s1 & Hs1 & F1 & F2 & F3 & F4 & F5) end.
      destruct Hs1 as [Hs1|Hs1]; rewrite Hs1.
      * assert (Sm := set_fmax_same _ _ _ _ _ Hs1).
        assert (L := objs_len s s1 F4).
        destruct (IH s1 (dn ++ [c])) as (s' & R & Z1 & Z2 & Z3).
        -- eapply invA_same; eauto.
        -- eapply invB_same; eauto.
        -- rewrite F1; exact HS.
        -- rewrite <- app_assoc. simpl. rewrite L. exact Hob.
        -- intros D c' Hc'. rewrite F5, (obj_name_shape s s1) by exact F4.
           rewrite (contact_names_same s s1 Sm). apply Hp; [exact D|right; exact Hc'].
        -- rewrite F3, Ht, <- app_assoc. reflexivity.
        -- exists s'. split; [exact R|]. split; [exact Z1|]. split; [congruence|exact Z3].
      * exists s1. split; [auto|]. rewrite F1. split; [exact HS|]. split; [exact F2|].
        unfold invT. rewrite F3, (objs_len s s1 F4), Ht. exact Hob.
    + destruct (cobj_at s (tr_obj c)) as [x|] eqn:Ex; [|unfold cobj_at in Ex; apply nth_error_None in Ex; lia].
      destruct (remove_now_safe s (co_name x) HA HB HS) as (s1 & b1 & E1 & S1).
      { intros D. destruct (Hp D c (or_introl eq_refl)) as [_ H]. specialize (H Et). unfold obj_name in H.
        unfold cobj_at in Ex. rewrite Ex in H. exact H. }
      rewrite E1. eexists; split; [left; reflexivity|].
      destruct (remove_now_rdata _ _ _ _ E1) as (R1 & R2 & R3).
      split; [exact S1|]. split; [exact R1|].
      unfold invT; simpl. rewrite R3. rewrite Forall_forall in *. intros y Hy. apply Hob.
      apply in_app_or in Hy. apply in_or_app. destruct Hy; [left|right; right]; assumption.
Qed.

Lemma decode_safe s x : invA s -> invS s -> f_nv s <= vlen x /\ f_k s <= vlen x ->
  exists s', decode s x = Some s' /\ f_heap s' = f_heap s /\ rdata s' = rdata s /\ f_trans s' = f_trans s /\
    f_objs s' = f_objs s /\ f_contacts s' = f_contacts s /\ f_k s' = f_k s /\
    (f_dec s = false -> vlen (f_f s') = f_k s) /\ (f_dec s = true -> s' = s).
Proof.
  intros HA HS Hx. unfold decode. destruct (f_dec s) eqn:D.
  - exists s. repeat split. intros X; discriminate.
  - destruct HS as [C1 [C2 C2'] C3 C4 C5].
    destruct (dyn_total s HA C5 C2 C2' C3 C4) as (d & Ed & (D1 & D2 & D3 & D4 & D5 & D6 & D7 & D8 & D9 & D10)).
    rewrite Ed. cbn [obind].
    destruct (vhead_total x (f_nv s)) as (dv & E1 & L1); [lia|]. rewrite E1. cbn [obind].
    destruct (vtail_total x (f_k s)) as (f & E2 & L2); [lia|]. rewrite E2. cbn [obind].
    destruct (mvec_total (d_Ma d) dv) as (Md & E3 & L3); [congruence|]. rewrite E3. cbn [obind].
    destruct (vadd_total (d_ha d) Md) as (t1 & E4 & L4); [congruence|]. rewrite E4. cbn [obind].
    destruct (mvec_total (mtr (d_Ja d)) f) as (Jf & E5 & L5); [simpl; congruence|]. rewrite E5. cbn [obind]. simpl in L5.
    destruct (vsub_total t1 Jf) as (ta & E6 & L6); [congruence|]. rewrite E6. cbn [obind].
    eexists; split; [reflexivity|]. repeat split; auto. intros X; discriminate.
Qed.

(** computeProblemData only writes the constraints, J_c, the robot data, h_fext and
    the decoded flag. *)
Definition refilled s s' : Prop := s' = w_Jc (w_heap s (f_heap s')) (f_Jc s').
Lemma refilled_refl s : refilled s s.
Proof. apply fs_ext; reflexivity. Qed.
Lemma refilled_trans a b c : refilled a b -> refilled b c -> refilled a c.
Proof. unfold refilled. intros H1 H2. rewrite H2, H1. apply fs_ext; reflexivity. Qed.
Lemma refilled_heap s h : refilled s (w_heap s h).
Proof. apply fs_ext; reflexivity. Qed.
Lemma ofold_refilled {B} (f : fstate -> B -> option fstate) l s s' :
  (forall s b s', f s b = Some s' -> refilled s s') -> ofold f l s = Some s' -> refilled s s'.
Proof.
  intros Hf. revert s; induction l as [|b l IH]; simpl; intros s H.
  - injection H as <-. apply refilled_refl.
  - destruct (f s b) as [s1|] eqn:E; [|discriminate]. eapply refilled_trans; eauto.
Qed.
Lemma comp_contact_refilled s e cl s' : comp_contact s e cl = Some s' -> refilled s s'.
Proof.
  unfold comp_contact. intros H. ob H.
  destruct (e_cmotion e (cl_obj cl)) as [A b].
  ob H. ob H. ob H. destruct (e_cforce _ _ _ _) as [[B lb] ub]. ob H.
  destruct (e_creg e (cl_obj cl)) as [C d]. ob H. injection H as <-. apply fs_ext; reflexivity.
Qed.
Lemma comp_base_refilled s d s' : comp_base s d = Some s' -> refilled s s'.
Proof. unfold comp_base. intros H. ob H. injection H as <-. apply refilled_heap. Qed.
Lemma comp_motion_refilled e s t s' : comp_motion e s t = Some s' -> refilled s s'.
Proof. unfold comp_motion. intros H. ob H. injection H as <-. apply refilled_heap. Qed.
Lemma comp_force_refilled e s t s' : comp_force e s t = Some s' -> refilled s s'.
Proof. unfold comp_force. intros H. destruct (force_slot _ _). ob H. injection H as <-. apply refilled_heap. Qed.
Lemma comp_act_refilled e d s t s' : comp_act e d s t = Some s' -> refilled s s'.
Proof. unfold comp_act. intros H. ob H. injection H as <-. apply refilled_heap. Qed.

Lemma comp_fill_frame s e s' : comp_fill s e = Some s' ->
  s' = w_dec (w_hfext (w_dyn (w_Jc (w_heap s (f_heap s')) (f_Jc s')) (e_mass e) (e_nle e)) (f_hfext s')) false.
Proof.
  unfold comp_fill. cbv zeta. intros H.
  destruct (ofold (fun s cl => comp_contact s e cl) _ _) as [s1|] eqn:E1; [|discriminate]. cbn [obind] in H.
  ob H. ob H. ob H. ob H. ob H. ob H. injection H as <-.
  apply ofold_refilled in E1; [|intros ? ? ? X; eapply comp_contact_refilled; exact X].
  apply comp_base_refilled in E2.
  apply ofold_refilled in E3; [|intros ? ? ? X; eapply comp_motion_refilled; exact X].
  apply ofold_refilled in E4; [|intros ? ? ? X; eapply comp_force_refilled; exact X].
  apply ofold_refilled in E5; [|intros ? ? ? X; eapply comp_act_refilled; exact X].
  assert (R := refilled_trans _ _ _ E2 (refilled_trans _ _ _ E3 (refilled_trans _ _ _ E4 E5))).
  unfold refilled in R, E1. rewrite R, E1. apply fs_ext; reflexivity.
Qed.
Lemma comp_fill_trans s e s' : comp_fill s e = Some s' -> f_trans s' = f_trans s /\ f_objs s' = f_objs s.
Proof. intros H. apply comp_fill_frame in H. rewrite H. auto. Qed.

Definition safe s : Prop := invS s /\ invT s.

Lemma safe_frame s s' : safe s -> rdata s' = rdata s -> f_trans s' = f_trans s ->
  List.length (f_objs s) <= List.length (f_objs s') -> Forall sized (f_heap s') -> safe s'.
Proof.
  intros [HS HT] E1 E2 E3 E4. split; [eapply invS_rdata; eauto|].
  unfold invT in *. rewrite E2. eapply Forall_impl; [|exact HT]. simpl; intros; lia.
Qed.

Definition fine (P : fstate -> Prop) (o : outcome fstate (fout K)) : Prop :=
  match o with Ret s _ => P s | Exc s => P s | Undef => False end.

Lemma add_task_safe s n kd r w lvl : safe s -> lvl < List.length (f_hqp s) ->
  exists s' a, add_task_cstr s n kd r w lvl = Some (s', a) /\ safe s'.
Proof.
  intros HS Hl. destruct (proj1 (add_task_level s n kd r w lvl) Hl) as (s' & a & E).
  exists s', a. split; [exact E|]. apply add_task_stored in E. destruct E as (_ & x & _ & -> & _).
  assert (Hc : Forall sized (f_heap s ++ [new_task_cstr n kd r (nVar s)])).
  { apply Forall_app. split; [apply (is_cells _ (proj1 HS))|]. constructor; [|constructor]. apply sized_new_task. }
  destruct (lvl =? 0); [destruct (is_eq kd)|]; apply (safe_frame s); auto.
Qed.

Theorem safe_step s o : invA s -> invB s -> safe s -> op_ok s o -> fine safe (step s o).
Proof.
  intros HA HB HSf Hok. assert (HSf' := HSf). destruct HSf' as [HS HT]. assert (HC := is_cells _ HS).
  destruct o; simpl in Hok; cbn [step Formulation.step].
  - (* new contact *) simpl. apply (safe_frame s); auto. simpl. rewrite app_length. lia.
  - destruct (set_fmin_safe s o f Hok) as (s' & [E|E] & F1 & F2 & F3 & F4 & F5); rewrite E; simpl;
      (apply (safe_frame s); auto; [rewrite (objs_len s s' F4); lia|rewrite F1; exact HC]).
  - destruct (set_fmax_safe s o f Hok) as (s' & [E|E] & F1 & F2 & F3 & F4 & F5); rewrite E; simpl;
      (apply (safe_frame s); auto; [rewrite (objs_len s s' F4); lia|rewrite F1; exact HC]).
  - unfold add_motion. destruct (args_ok w dur); [|simpl; exact HSf].
    destruct (add_task_safe s name kd rows w lvl HSf Hok) as (s' & a & E & S'). rewrite E. simpl.
    apply (safe_frame s'); auto. apply (is_cells _ (proj1 S')).
  - unfold add_force. destruct (args_ok w dur); [|simpl; exact HSf].
    destruct (add_task_safe s name kd rows w lvl HSf Hok) as (s' & a & E & S'). rewrite E. simpl.
    apply (safe_frame s'); auto. apply (is_cells _ (proj1 S')).
  - unfold add_act. destruct (args_ok w dur); [|simpl; exact HSf].
    destruct (add_task_safe s name kd rows w lvl HSf Hok) as (s' & a & E & S'). rewrite E. simpl.
    apply (safe_frame s'); auto. apply (is_cells _ (proj1 S')).
  - unfold upd_task_weight. destruct (f_hqp s) as [|l0 ls]; [simpl; exact HSf|].
    destruct (upd_weight_levels _ _ _ _); simpl; [|exact HSf]. apply (safe_frame s); auto.
  - destruct Hok as [Ho Hl]. destruct (nth_error (f_objs s) o) as [x|] eqn:Ex; [|apply nth_error_None in Ex; lia].
    destruct (add_contact_total s o wreg wmot lvl x HA HC Ex Hl) as (s' & E & S'). rewrite E. simpl.
    assert (F : rdata s' = rdata s /\ f_trans s' = f_trans s /\ f_objs s' = f_objs s).
    { apply add_contact_spec in E. destruct E as (_ & x' & s1 & q1 & q2 & q3 & _ & Hr & H).
      apply resize_rdata in Hr. destruct Hr as (R1 & R2 & R3).
      cbv zeta in H. destruct H as (_ & _ & _ & ->).
      split; [|split].
      - transitivity (rdata s1); [|exact R1]. destruct (lvl =? 0); reflexivity.
      - transitivity (f_trans s1); [|exact R2]. destruct (lvl =? 0); reflexivity.
      - transitivity (f_objs s1); [|exact R3]. destruct (lvl =? 0); reflexivity. }
    destruct F as (F1 & F2 & F3). apply (safe_frame s); auto. rewrite F3. lia.
  - unfold upd_contact_weights. destruct (f_hqp s) as [|l0 ls]; [simpl; exact HSf|].
    destruct (upd_cw_levels _ _ _ _ _ _ _) as [ls' b]; simpl. apply (safe_frame s); auto.
  - simpl. apply (safe_frame s); auto.
  - (* removeTask *) unfold remove_task.
    assert (F := erase_hqp_found s name). assert (G := erase_frame s name). assert (R := erase_rdata s name).
    assert (M : f_motions (fst (erase_hqp s name)) = f_motions s /\ f_forces (fst (erase_hqp s name)) = f_forces s /\
                f_acts (fst (erase_hqp s name)) = f_acts s).
    { unfold erase_hqp. destruct (erase_levels _ _ _); auto. }
    destruct (erase_hqp s name) as [s1 b]. simpl fst in *. simpl snd in *.
    destruct G as (G1 & G2 & G3 & G4). destruct R as [R1 R2]. destruct M as (M1 & M2 & M3).
    assert (Ea : exists u, assert_ dbg b = Some u).
    { unfold assert_, guard. destruct dbg; [|eauto]. rewrite (proj2 F (Hok eq_refl)). eauto. }
    destruct Ea as [u Ea]. rewrite Ea. rewrite M1, M2, M3.
    assert (S1 : safe s1) by (apply (safe_frame s); auto; [rewrite G3; lia|rewrite G1; exact HC]).
    assert (C1 : Forall sized (f_heap s1)) by (rewrite G1; exact HC).
    assert (Rw : forall t, In t (tasks s) -> exists kd r, tl_rows s1 t = Some (kd, r)).
    { intros t Ht. destruct (b_task _ HB t Ht) as ((kd & r & Hi) & _ & _). unfold tl_rows. rewrite G1.
      apply info_lt in Hi. destruct (nth_error (f_heap s) (tl_cstr t)) as [c|] eqn:X; [|apply nth_error_None in X; lia].
      cbn [obind]. assert (Sc := sized_nth _ _ _ HC X). unfold sized in Sc. rewrite Sc. cbn [obind]. eauto. }
    destruct (take_task name (f_motions s)) as [[t r]|] eqn:T1.
    { apply take_task_spec in T1. destruct T1 as (l1 & l2 & T1 & _).
      destruct (Rw t) as (kd & m & Er); [unfold tasks; rewrite T1; apply in_or_app; left; apply in_elt|].
      destruct (tl_prio t =? 0); [rewrite Er; destruct kd|]; simpl; apply (safe_frame s1); auto. }
    destruct (take_task name (f_forces s)) as [[t r]|] eqn:T2.
    { simpl. apply (safe_frame s1); auto. }
    destruct (take_task name (f_acts s)) as [[t r]|] eqn:T3; [|simpl; exact S1].
    apply take_task_spec in T3. destruct T3 as (l1 & l2 & T3 & _).
    destruct (Rw t) as (kd & m & Er).
    { unfold tasks; rewrite T3; apply in_or_app; right. apply in_or_app; right. apply in_elt. }
    destruct (tl_prio t =? 0); [rewrite Er; destruct kd|]; simpl; apply (safe_frame s1); auto.
  - (* removeRigidContact *) unfold remove_contact. destruct ((n0 <? dur)%num).
    + unfold find_contact. destruct (take_contact s name (f_contacts s)) as [[c r]|] eqn:T; [|simpl; exact HSf].
      apply take_contact_spec in T. destruct T as (l1 & l2 & T & _).
      assert (Ho : cl_obj c < List.length (f_objs s)).
      { assert (H := ia_objs _ HA). rewrite Forall_forall in H. apply H. rewrite T. apply in_elt. }
      destruct (cobj_at s (cl_obj c)) as [x|] eqn:Ex; [|unfold cobj_at in Ex; apply nth_error_None in Ex; lia].
      simpl. split.
      * apply (invS_rdata s); auto.
      * unfold invT; simpl. apply Forall_app. split; [exact HT|]. constructor; [exact Ho|constructor].
    + destruct (remove_now_safe s name HA HB HC) as (s' & b & E & S'); [intros D; apply Hok; auto|].
      rewrite E. simpl. destruct (remove_now_rdata _ _ _ _ E) as (R1 & R2 & R3).
      apply (safe_frame s); auto. rewrite R3; lia.
  - unfold remove_meas. destruct (take_meas name (f_meas s)); simpl; [|exact HSf]. apply (safe_frame s); auto.
  - (* compute *) destruct Hok as [Hp He]. unfold compute.
    assert (A1 : invA (w_t s t)) by (destruct HA; constructor; auto).
    assert (B1 : invB (w_t s t)) by (apply (invB_sameB s); [repeat split|exact HB]).
    destruct (transitions_safe (f_trans s) (w_t s t) []) as (s1 & R & Z1 & Z2 & Z3); auto.
    change (f_trans (w_t s t)) with (f_trans s).
    assert (S1 : invS s1) by (apply (invS_rdata s); auto).
    destruct R as [R|R]; rewrite R; [|simpl; split; auto].
    assert (A2 : invA s1).
    { eapply (run_transitions_inv dbg invA) with (o := Ret s1 tt); eauto.
      - intros; eapply invA_same; eauto.
      - intros s2 l []; constructor; auto.
      - intros s2 n s3 b2 H2 H3. eapply invA_remove_contact_now; eauto. }
    assert (B2 : invA s1 /\ invB s1).
    { eapply (run_transitions_inv dbg (fun s => invA s /\ invB s)) with (o := Ret s1 tt) (s := w_t s t); eauto.
      - intros s2 s3 Sm [X Y]. split; [eapply invA_same|eapply invB_same]; eauto.
      - intros s2 l [X Y]. split; [destruct X; constructor; auto|apply (invB_sameB s2); [repeat split|exact Y]].
      - intros s2 n s3 b2 [X Y] H3. split; [eapply invA_remove_contact_now; eauto|].
        eapply invB_remove_contact_now; eauto. }
    destruct (comp_fill_total s1 e A2 (proj2 B2) S1 (He _ R)) as (s2 & E2 & S2). rewrite E2. simpl.
    split; [exact S2|]. assert (F := comp_fill_trans _ _ _ E2). destruct F as [F1 F2].
    unfold invT. rewrite F1, F2. exact Z3.
  - (* get *) destruct Hok as [Hx Hg]. unfold get.
    destruct (decode_safe s x HA HS Hx) as (s' & E & F1 & F2 & F3 & F4 & F5 & F6 & F7 & F8). rewrite E.
    assert (S' : safe s') by (apply (safe_frame s); auto; [rewrite F4; lia|rewrite F1; exact HC]).
    destruct g; simpl; auto.
    unfold find_contact. rewrite (take_contact_objs s s') by exact F4. rewrite F5.
    destruct (take_contact s name (f_contacts s)) as [[c r]|] eqn:T; [|simpl; exact S'].
    apply take_contact_spec in T. destruct T as (l1 & l2 & T & _).
    destruct (vsegment_total (f_f s') (cl_index c) (cl_nforce s' c)) as (v & Ev & _).
    { assert (B := slot_bound s c HA). rewrite T in B. specialize (B (in_elt _ _ _)).
      unfold cl_nforce, cobj_at in *. rewrite F4.
      assert (L : vlen (f_f s') = f_k s).
      { destruct (f_dec s) eqn:D; [rewrite (F8 eq_refl); apply Hg; reflexivity|apply F7; reflexivity]. }
      lia. }
    rewrite Ev. simpl. exact S'.
Qed.

Lemma safe_init nv na (M0 : mat K) H0 : mrows M0 = nv -> mcols M0 = nv -> vlen H0 = nv -> safe (init nv na M0 H0).
Proof.
  intros E1 E2 E3. split; [|constructor]. constructor; simpl; auto; try lia.
  constructor; [|constructor]. apply sized_new_eq.
Qed.

Lemma fine_after (P : fstate -> Prop) o s' : fine P o -> after o = Some s' -> P s'.
Proof. destruct o; simpl; intros H E; try discriminate; injection E as <-; exact H. Qed.

Theorem safe_reach nv na (M0 : mat K) H0 s :
  mrows M0 = nv -> mcols M0 = nv -> vlen H0 = nv ->
  reach step (fun s o => names_ok s o /\ op_ok s o) (init nv na M0 H0) s ->
  invA s /\ invB s /\ safe s.
Proof.
  intros E1 E2 E3 Hr.
  assert (AB : invA s /\ invB s) by (eapply invAB_reach; [|exact Hr]; simpl; tauto).
  split; [apply AB|]. split; [apply AB|]. clear AB.
  induction Hr as [|s o s' Hr IH [Hn Ho] Ha]; [apply safe_init; assumption|].
  assert (AB : invA s /\ invB s) by (eapply invAB_reach; [|exact Hr]; simpl; tauto).
  eapply fine_after; [|exact Ha]. apply safe_step; tauto.
Qed.

(** No well-formed call of a well-formed history is undefined. *)
Theorem no_undef nv na (M0 : mat K) H0 s o :
  mrows M0 = nv -> mcols M0 = nv -> vlen H0 = nv ->
  reach step (fun s o => names_ok s o /\ op_ok s o) (init nv na M0 H0) s ->
  op_ok s o -> step s o <> Undef.
Proof.
  intros E1 E2 E3 Hr Ho. destruct (safe_reach _ _ _ _ _ E1 E2 E3 Hr) as (A & B & S).
  assert (F := safe_step s o A B S Ho). destruct (step s o); simpl in F; [discriminate|discriminate|contradiction].
Qed.

End Safe2.
