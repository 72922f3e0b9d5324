(** Columns a constraint does not use stay zero over every history, hence the
    contents of the problem data after any computation. *)
From Coq Require Import String List Arith Bool ZArith Lia Permutation.
From Verif Require Import Scalar Outcome Linalg Constraint Formulation ListUtil FormSpec FormDataSpec FormInv FormInvB FormInvC FormOps FormSafe FormSafe2 FormData.
Import ListNotations.
Open Scope string_scope.
Open Scope list_scope.
Open Scope nat_scope.

Section Zero.
Context {K : num}.
Variable dbg : bool.
Local Notation fstate := (fstate K).
Local Notation step := (step dbg).
Implicit Types (s : fstate) (h : list (constr K)) (w : K).

Definition zero_cell (k : constr K) : Prop := forall i j, mget (c_mat k) i j = n0.
Definition cells_zero s : Prop :=
  forall a k, In a (map snd (concat (f_hqp s))) -> nth_error (f_heap s) a = Some k -> zero_cell k.

Lemma zero_cell_out (k : constr K) j n : zero_cell k -> zero_out (c_mat k) j n.
Proof. intros H i q _ _ _. apply H. Qed.

Lemma zero_new_eq n r c : zero_cell (new_eq (K:=K) n r c).
Proof. intros i j. reflexivity. Qed.
Lemma zero_new_ineq n r c : zero_cell (new_ineq (K:=K) n r c).
Proof. intros i j. reflexivity. Qed.
Lemma zero_new_task n kd r c : zero_cell (new_task_cstr (K:=K) n kd r c).
Proof. destruct kd; intros i j; reflexivity. Qed.

Lemma cresize_zero (k k' : constr K) r c : c_kind k <> CBound -> cresize k r c = Some k' ->
  zero_cell k' /\ c_kind k' = c_kind k.
Proof.
  unfold cresize. intros Hk H. destruct (c_kind k) eqn:E; [| |contradiction]; injection H as <-; split; auto;
    intros i j; reflexivity.
Qed.

Lemma resize_fold_zero n (l : list (K * nat)) : forall h h', Forall nobound h ->
  ofold (fun h e => resize_at n h (snd e)) l h = Some h' ->
  forall a k, nth_error h' a = Some k ->
    (In a (map snd l) \/ exists k0, nth_error h a = Some k0 /\ zero_cell k0) -> zero_cell k.
Proof.
  induction l as [|e l IH]; intros h h' Hb H a k Hk Ha; simpl in H.
  - injection H as <-. destruct Ha as [[]|(k0 & E & Z)]. congruence.
  - destruct (resize_at n h (snd e)) as [h1|] eqn:E; [|discriminate].
    unfold resize_at in E. destruct (nth_error h (snd e)) as [c|] eqn:Ec; [|discriminate]. cbn [obind] in E.
    ob E. ob E. injection E as <-.
    assert (Nc : c_kind c <> CBound) by (rewrite Forall_forall in Hb; apply Hb; eapply nth_error_In; eauto).
    destruct (cresize_zero _ _ _ _ Nc E1) as [Z1 K1].
    assert (Lt : snd e < List.length h) by (apply nth_error_Some; congruence).
    eapply IH; [|exact H|exact Hk|].
    + apply Forall_forall. intros y Hy. apply In_nth_error in Hy. destruct Hy as [i Hi].
      destruct (Nat.eq_dec (snd e) i) as [<-|Ne].
      * rewrite nth_error_lupd_eq in Hi by exact Lt. injection Hi as <-. unfold nobound. congruence.
      * rewrite nth_error_lupd_neq in Hi by exact Ne. rewrite Forall_forall in Hb. apply Hb. eapply nth_error_In; eauto.
    + destruct (Nat.eq_dec (snd e) a) as [<-|Ne].
      * right. exists a1. split; [apply nth_error_lupd_eq; exact Lt|exact Z1].
      * destruct Ha as [[X|X]|(k0 & X & Z)]; [contradiction|left; exact X|].
        right. exists k0. rewrite nth_error_lupd_neq by exact Ne. auto.
Qed.

Lemma resize_zero s s' : Forall nobound (f_heap s) -> resize_hqp s = Some s' ->
  cells_zero s' /\ f_hqp s' = f_hqp s.
Proof.
  intros Hb H. unfold resize_hqp in H. ob H. ob H. ob H. injection H as <-. split; [|reflexivity].
  intros x k Hx Hk. simpl in Hx, Hk.
  assert (Na : c_kind a <> CBound) by (rewrite Forall_forall in Hb; apply Hb; eapply nth_error_In; eauto).
  destruct (cresize_zero _ _ _ _ Na E0) as [Z1 K1].
  eapply resize_fold_zero; [|exact E1|exact Hk|left; exact Hx].
  apply Forall_forall. intros y Hy. apply In_nth_error in Hy. destruct Hy as [i Hi].
  assert (Lt : f_base s < List.length (f_heap s)) by (apply nth_error_Some; congruence).
  destruct (Nat.eq_dec (f_base s) i) as [<-|Ne].
  - rewrite nth_error_lupd_eq in Hi by exact Lt. injection Hi as <-. unfold nobound. congruence.
  - rewrite nth_error_lupd_neq in Hi by exact Ne. rewrite Forall_forall in Hb. apply Hb. eapply nth_error_In; eauto.
Qed.

Lemma zero_footprint asc s : invB s -> cells_zero s -> footprint asc s.
Proof.
  intros HB Z.
  assert (Ow : forall a, In a (owners s) -> In a (map snd (concat (f_hqp s)))).
  { intros a Ha. eapply Permutation_in; [symmetry; exact (b_perm _ HB)|exact Ha]. }
  assert (Ct : forall c a, In c (f_contacts s) -> In a (con_addrs c) -> In a (owners s)).
  { intros c a Hc Ha. right. apply in_or_app. right. apply in_flat_map. eauto. }
  assert (Tk : forall t, In t (tasks s) -> In (tl_cstr t) (owners s)).
  { intros t Ht. right. apply in_or_app. left. apply in_map; exact Ht. }
  split; [|split].
  - intros c x Hc Hx. repeat split; intros k Hk; apply zero_cell_out; eapply Z; try exact Hk; apply Ow;
      apply (Ct c); auto; simpl; auto.
  - intros t k Ht Hk. apply zero_cell_out. eapply Z; [|exact Hk]. apply Ow, Tk. unfold tasks. rewrite !in_app_iff; auto.
  - intros t k Ht Hk. apply zero_cell_out. eapply Z; [|exact Hk]. apply Ow, Tk. unfold tasks. rewrite !in_app_iff; auto.
Qed.

Lemma find_oshape s s' n : f_contacts s' = f_contacts s ->
  (forall c, In c (f_contacts s) -> option_map oshape (nth_error (f_objs s') (cl_obj c)) = option_map oshape (nth_error (f_objs s) (cl_obj c))) ->
  find_contact s' n = find_contact s n /\
  forall c, In c (f_contacts s) -> cl_nforce s' c = cl_nforce s c /\ cl_name s' c = cl_name s c.
Proof.
  intros Ec Ho.
  assert (G : forall c, In c (f_contacts s) -> cl_nforce s' c = cl_nforce s c /\ cl_name s' c = cl_name s c).
  { intros c Hc. specialize (Ho c Hc). unfold cl_nforce, cl_name, cobj_at.
    destruct (nth_error (f_objs s') (cl_obj c)), (nth_error (f_objs s) (cl_obj c)); simpl in Ho; try discriminate; auto.
    unfold oshape in Ho. injection Ho; intros. auto. }
  split; [|exact G]. unfold find_contact. rewrite Ec.
  assert (T : forall l, incl l (f_contacts s) -> take_contact s' n l = take_contact s n l).
  { induction l as [|c l IH]; intros Hi; simpl; [reflexivity|].
    rewrite (proj2 (G c (Hi c (or_introl eq_refl)))). rewrite IH by (intros y Hy; apply Hi; right; exact Hy). reflexivity. }
  rewrite T by apply incl_refl. reflexivity.
Qed.

Lemma slot_oshape s s' n : f_nv s' = f_nv s -> f_k s' = f_k s -> f_contacts s' = f_contacts s ->
  (forall c, In c (f_contacts s) -> option_map oshape (nth_error (f_objs s') (cl_obj c)) = option_map oshape (nth_error (f_objs s) (cl_obj c))) ->
  force_slot s' n = force_slot s n.
Proof.
  intros E1 E2 E3 E4. destruct (find_oshape s s' n E3 E4) as [F G]. unfold force_slot. rewrite E1, E2, F.
  destruct (String.eqb n ""); [reflexivity|].
  destruct (find_contact s n) as [c|] eqn:X; [|reflexivity]. f_equal. apply G.
  unfold find_contact in X. destruct (take_contact s n (f_contacts s)) as [[c0 r]|] eqn:Y; [|discriminate].
  injection X as ->. apply take_contact_spec in Y. destruct Y as (l1 & l2 & Y & _). rewrite Y. apply in_elt.
Qed.

Lemma footprint_frame asc s s' : footprint asc s ->
  f_nv s' = f_nv s -> f_k s' = f_k s -> f_contacts s' = f_contacts s ->
  (forall c, In c (f_contacts s) -> option_map oshape (nth_error (f_objs s') (cl_obj c)) = option_map oshape (nth_error (f_objs s) (cl_obj c))) ->
  (forall a k, nth_error (f_heap s') a = Some k -> nth_error (f_heap s) a = Some k \/ zero_cell k) ->
  (forall t, In t (f_motions s') -> In t (f_motions s) \/ forall k, nth_error (f_heap s') (tl_cstr t) = Some k -> zero_cell k) ->
  (forall t, In t (f_forces s') -> In t (f_forces s) \/ forall k, nth_error (f_heap s') (tl_cstr t) = Some k -> zero_cell k) ->
  footprint asc s'.
Proof.
  intros (F1 & F2 & F3) E1 E2 E3 E4 Eh Em Ef. split; [|split].
  - intros c x Hc Hx. rewrite E3 in Hc. assert (Ho := E4 c Hc). rewrite Hx in Ho. simpl in Ho.
    destruct (nth_error (f_objs s) (cl_obj c)) as [y|] eqn:Ey; [|discriminate].
    assert (Nf : co_nforce x = co_nforce y) by (unfold oshape in Ho; simpl in Ho; congruence).
    destruct (F1 c y Hc Ey) as (G1 & G2 & G3). rewrite <- Nf in G2, G3. unfold pre_contact. rewrite E1.
    repeat split; intros k Hk; destruct (Eh _ _ Hk) as [X|X]; auto using zero_cell_out.
  - intros t k Ht Hk. rewrite E1. destruct (Em t Ht) as [Hm|Hz]; [|apply zero_cell_out; auto].
    destruct (Eh _ _ Hk) as [X|X]; [eauto|apply zero_cell_out; auto].
  - intros t k Ht Hk. rewrite (slot_oshape s s') by assumption. destruct (Ef t Ht) as [Hm|Hz]; [|apply zero_cell_out; auto].
    destruct (Eh _ _ Hk) as [X|X]; [eauto|apply zero_cell_out; auto].
Qed.

Lemma footprint_same_heap asc s s' : footprint asc s ->
  f_nv s' = f_nv s -> f_k s' = f_k s -> f_contacts s' = f_contacts s -> f_heap s' = f_heap s ->
  map oshape (f_objs s') = map oshape (f_objs s) ->
  incl (f_motions s') (f_motions s) -> incl (f_forces s') (f_forces s) -> footprint asc s'.
Proof.
  intros F E1 E2 E3 E4 E5 E6 E7. eapply footprint_frame; eauto.
  - intros c _. rewrite <- !nth_error_map, E5. reflexivity.
  - intros a k. rewrite E4. auto.
Qed.

Lemma add_task_footprint asc s n kd r w lvl s' a :
  footprint asc s -> add_task_cstr s n kd r w lvl = Some (s', a) ->
  footprint asc s' /\ forall k, nth_error (f_heap s') a = Some k -> zero_cell k.
Proof.
  intros F H. apply add_task_cstr_spec in H.
  destruct H as (hq0 & hq & x & _ & _ & _ & _ & -> & ->).
  assert (Hn : forall b k, nth_error (f_heap s ++ [new_task_cstr n kd r (nVar s)]) b = Some k -> nth_error (f_heap s) b = Some k \/ zero_cell k).
  { intros b k Hk. destruct (Nat.lt_ge_cases b (List.length (f_heap s))) as [L|L].
    - rewrite nth_error_app1 in Hk by exact L. auto.
    - right. rewrite nth_error_app2 in Hk by exact L. destruct (b - List.length (f_heap s)) as [|m]; simpl in Hk.
      + injection Hk as <-. apply zero_new_task.
      + destruct m; discriminate. }
  split.
  - eapply footprint_frame; [exact F|..];
      try (destruct (lvl =? 0); [destruct (is_eq kd)|]; simpl; auto; fail).
  - intros k Hk. cbn [f_heap w_hqp w_heap] in Hk. rewrite nth_error_app_new in Hk. injection Hk as <-. apply zero_new_task.
Qed.

Lemma w_task_footprint asc s t : footprint asc s ->
  (forall k, nth_error (f_heap s) (tl_cstr t) = Some k -> zero_cell k) ->
  footprint asc (w_motions s (f_motions s ++ [t])) /\ footprint asc (w_forces s (f_forces s ++ [t])).
Proof.
  intros F Z. split; eapply footprint_frame; try exact F; simpl; auto.
  - intros t' Ht'. apply in_app_or in Ht'. destruct Ht' as [X|[<-|[]]]; auto.
  - intros t' Ht'. apply in_app_or in Ht'. destruct Ht' as [X|[<-|[]]]; auto.
Qed.

Lemma remove_now_footprint asc s n s' b : invA s -> invB s -> footprint asc s ->
  remove_contact_now dbg s n = Ret s' b -> footprint asc s'.
Proof.
  intros HA HB F H.
  destruct (in_dec string_dec n (contact_names s)) as [Hi|Hi].
  - assert (B' : invB s') by (eapply invB_remove_contact_now; eauto).
    apply zero_footprint; [exact B'|].
    assert (H' := H). apply remove_contact_now_spec in H'.
    assert (Hnb : Forall nobound (f_heap s)) by (apply heap_nobound; exact (ia_kind _ HA)).
    destruct H' as [(T & _)|(c & r & s4 & mr & fr & T & _ & _ & Hr & ->)].
    + exfalso. unfold contact_names in Hi. apply in_map_iff in Hi. destruct Hi as (c & Hc & Hin).
      exact (proj1 (Forall_forall _ _) (take_contact_none s n _ T) c Hin Hc).
    + apply resize_zero in Hr.
      * destruct Hr as [Z _]. exact Z.
      * destruct (erase3_frame s n) as (_ & _ & _ & _). simpl.
        assert (X : f_heap (erase3 s n) = f_heap s) by (unfold erase3; rewrite !erase_heap; reflexivity).
        rewrite X. exact Hnb.
  - destruct (remove_absent dbg s n s' b HA HB Hi H) as [-> _]. exact F.
Qed.

Lemma add_contact_footprint asc s o wr wm lvl s' b : invA s -> invB s' ->
  add_contact s o wr wm lvl = Ret s' b -> footprint asc s'.
Proof.
  intros HA HB' H. apply zero_footprint; [exact HB'|].
  apply add_contact_spec in H. destruct H as (_ & x & s1 & q1 & q2 & q3 & Hx & Hr & H). cbv zeta in H.
  destruct H as (P1 & P2 & P3 & ->).
  apply resize_zero in Hr; [|apply heap_nobound; exact (ia_kind _ HA)]. destruct Hr as [Z Eq].
  intros a k Ha Hk. cbn [f_hqp f_heap w_in w_eq w_contacts w_hqp w_heap] in Ha, Hk.
  apply push_level_perm in P1, P2, P3. destruct P1 as [P1 _]. destruct P2 as [P2 _]. destruct P3 as [P3 _].
  assert (Hc : In a (map snd (concat (f_hqp s1))) \/ List.length (f_heap s1) <= a).
  { apply in_map_iff in Ha. destruct Ha as (en & <- & He).
    apply (Permutation_in _ P3) in He. destruct He as [<-|He]; [right; simpl; lia|].
    apply (Permutation_in _ P2) in He. destruct He as [<-|He]; [right; simpl; lia|].
    apply (Permutation_in _ P1) in He. destruct He as [<-|He]; [right; simpl; lia|].
    left. apply in_map; exact He. }
  destruct (Nat.lt_ge_cases a (List.length (f_heap s1))) as [L|L].
  - rewrite nth_error_app1 in Hk by exact L. destruct Hc as [Hc|Hc]; [eauto|lia].
  - rewrite nth_error_app2 in Hk by exact L. destruct (a - List.length (f_heap s1)) as [|[|[|m]]]; simpl in Hk.
    + injection Hk as <-. apply zero_new_eq.
    + injection Hk as <-. apply zero_new_ineq.
    + injection Hk as <-. apply zero_new_eq.
    + destruct m; discriminate.
Qed.


Lemma same_footprint asc s s' : same s s' -> f_heap s' = f_heap s -> footprint asc s -> footprint asc s'.
Proof.
  intros S Eh F. eapply footprint_same_heap; try exact F; auto.
  - apply (sm_nv _ _ S).
  - apply (sm_k _ _ S).
  - apply (sm_con _ _ S).
  - apply (sm_obj _ _ S).
  - rewrite (sm_mot _ _ S). apply incl_refl.
  - rewrite (sm_for _ _ S). apply incl_refl.
Qed.

Lemma set_fmax_heap s o f : forall s', after (obj_set_fmax s o f) = Some s' -> same s s' /\ f_heap s' = f_heap s.
Proof.
  intros s' H. destruct (obj_set_fmax s o f) as [s1 b|s1|] eqn:E; [| |discriminate]; injection H as <-.
  - split; [eapply set_fmax_same; exact E|]. unfold obj_set_fmax in E. destruct (cobj_at s o); [|discriminate].
    destruct (_ || _); [injection E as <- _; reflexivity|discriminate].
  - unfold obj_set_fmax in E. destruct (cobj_at s o); [|discriminate].
    destruct (_ || _); [discriminate|injection E as <-; split; [apply same_refl|reflexivity]].
Qed.
Lemma set_fmin_heap s o f : forall s', after (obj_set_fmin s o f) = Some s' -> same s s' /\ f_heap s' = f_heap s.
Proof.
  intros s' H. destruct (obj_set_fmin s o f) as [s1 b|s1|] eqn:E; [| |discriminate]; injection H as <-.
  - split; [eapply set_fmin_same; exact E|]. unfold obj_set_fmin in E. destruct (cobj_at s o); [|discriminate].
    destruct (_ || _); [injection E as <- _; reflexivity|discriminate].
  - unfold obj_set_fmin in E. destruct (cobj_at s o); [|discriminate].
    destruct (_ || _); [discriminate|injection E as <-; split; [apply same_refl|reflexivity]].
Qed.

Lemma invAB_trans s l : invA s /\ invB s -> invA (w_trans s l) /\ invB (w_trans s l).
Proof. intros [X Y]. split; [destruct X; constructor; auto|apply (invB_sameB s); [repeat split|exact Y]]. Qed.
Lemma invAB_same' s s' : same s s' -> invA s /\ invB s -> invA s' /\ invB s'.
Proof. intros S [X Y]. split; [eapply invA_same|eapply invB_same]; eauto. Qed.
Lemma invAB_remove s n s' b : invA s /\ invB s -> remove_contact_now dbg s n = Ret s' b -> invA s' /\ invB s'.
Proof. intros [X Y] H. split; [eapply invA_remove_contact_now; eauto|eapply invB_remove_contact_now; eauto]. Qed.
Lemma invAB_time s t : invA s /\ invB s -> invA (w_t s t) /\ invB (w_t s t).
Proof. intros [X Y]. split; [destruct X; constructor; auto|apply (invB_sameB s); [repeat split|exact Y]]. Qed.

Lemma transitions_footprint asc todo : forall s dn s', invA s /\ invB s -> footprint asc s ->
  after (run_transitions dbg s dn todo) = Some s' -> (invA s' /\ invB s') /\ footprint asc s'.
Proof.
  induction todo as [|c todo IH]; simpl; intros s dn s' HI F H.
  - injection H as <-. auto.
  - destruct (assert_ _ _); [|discriminate].
    destruct (_ <=? _)%num.
    + match type of H with after (match ?t with _ => _ end) = _ => destruct t as [s1 b|s1|] eqn:E; [| |discriminate] end.
      * destruct (set_fmax_heap s _ _ s1 (f_equal after E)) as [S Eh].
        eapply IH; [|eapply same_footprint; eauto|exact H]. eapply invAB_same'; eauto.
      * injection H as <-. destruct (set_fmax_heap s _ _ s1 (f_equal after E)) as [S Eh].
        split; [eapply invAB_same'; eauto|eapply same_footprint; eauto].
    + destruct (cobj_at s (tr_obj c)) as [x|]; [|discriminate].
      destruct (remove_contact_now dbg s (co_name x)) as [s1 b|s1|] eqn:E; [| |discriminate].
      * injection H as <-. split; [apply invAB_trans; eapply invAB_remove; eauto|].
        eapply footprint_same_heap; [eapply remove_now_footprint; [apply HI|apply HI|exact F|exact E]|..];
          try reflexivity; apply incl_refl.
      * exfalso. unfold remove_contact_now in E.
        match type of E with match ?t with _ => _ end = _ => destruct t as [[? ?]|]; discriminate end.
Qed.

Theorem footprint_step asc s o s' : invA s -> invB s -> safe s -> footprint asc s ->
  names_ok s o -> op_ok dbg s o -> assoc_fixed asc o -> after (step s o) = Some s' -> footprint asc s'.
Proof.
  intros HA HB HS F HN HO Has Ha.
  assert (HB' : invB s') by (eapply invB_step; eauto).
  destruct o; simpl in Ha; try rewrite lift_after in Ha.
  - injection Ha as <-. eapply footprint_frame; [exact F|..]; simpl; auto.
    intros c0 Hc. assert (L := ia_objs _ HA). rewrite Forall_forall in L. specialize (L c0 Hc).
    rewrite nth_error_app1 by exact L. reflexivity.
  - destruct (set_fmin_heap _ _ _ _ Ha) as [S E]. eapply same_footprint; eauto.
  - destruct (set_fmax_heap _ _ _ _ Ha) as [S E]. eapply same_footprint; eauto.
  - unfold add_motion in Ha. destruct (args_ok w dur); [|injection Ha as <-; exact F].
    destruct (add_task_cstr s name kd rows w lvl) as [[s1 a]|] eqn:E; [|discriminate]. injection Ha as <-.
    destruct (add_task_footprint _ _ _ _ _ _ _ _ _ F E) as [F1 Z]. apply w_task_footprint; auto.
  - unfold add_force in Ha. destruct (args_ok w dur); [|injection Ha as <-; exact F].
    destruct (add_task_cstr s name kd rows w lvl) as [[s1 a]|] eqn:E; [|discriminate]. injection Ha as <-.
    destruct (add_task_footprint _ _ _ _ _ _ _ _ _ F E) as [F1 Z]. apply w_task_footprint; auto.
  - unfold add_act in Ha. destruct (args_ok w dur); [|injection Ha as <-; exact F].
    destruct (add_task_cstr s name kd rows w lvl) as [[s1 a]|] eqn:E; [|discriminate]. injection Ha as <-.
    destruct (add_task_footprint _ _ _ _ _ _ _ _ _ F E) as [F1 Z].
    eapply footprint_same_heap; [exact F1|..]; try reflexivity; apply incl_refl.
  - unfold upd_task_weight in Ha. destruct (f_hqp s) as [|l0 ls] eqn:Eq; [injection Ha as <-; exact F|].
    destruct (upd_weight_levels _ _ _ _); injection Ha as <-; auto.
    eapply footprint_same_heap; [exact F|..]; try reflexivity; apply incl_refl.
  - destruct (add_contact s o wreg wmot lvl) as [s1 b|s1|] eqn:E; [| |discriminate]; injection Ha as <-.
    + eapply add_contact_footprint; eauto.
    + unfold add_contact in E. match type of E with match ?t with _ => _ end = _ => destruct t; discriminate end.
  - unfold upd_contact_weights in Ha. destruct (f_hqp s) as [|l0 ls] eqn:Eq; [injection Ha as <-; exact F|].
    destruct (upd_cw_levels _ _ _ _ _ _ _) as [ls' b]; injection Ha as <-.
    eapply footprint_same_heap; [exact F|..]; try reflexivity; apply incl_refl.
  - injection Ha as <-. eapply footprint_same_heap; [exact F|..]; try reflexivity; apply incl_refl.
  - unfold remove_task in Ha.
    assert (G := erase_frame s name).
    assert (M : f_motions (fst (erase_hqp s name)) = f_motions s /\ f_forces (fst (erase_hqp s name)) = f_forces s /\
                f_acts (fst (erase_hqp s name)) = f_acts s /\ f_nv (fst (erase_hqp s name)) = f_nv s /\ f_k (fst (erase_hqp s name)) = f_k s).
    { unfold erase_hqp. destruct (erase_levels _ _ _); auto. }
    destruct (erase_hqp s name) as [s1 b]. simpl fst in *.
    destruct G as (G1 & G2 & G3 & _). destruct M as (M1 & M2 & M3 & M4 & M5).
    assert (Tk : forall (l : list tlevel) t r, take_task name l = Some (t, r) -> incl r l).
    { intros l t r T. apply take_task_spec in T. destruct T as (l1 & l2 & -> & -> & _).
      intros y Hy. apply in_app_or in Hy. apply in_or_app. simpl. tauto. }
    assert (Fin : forall q, f_heap q = f_heap s1 -> f_contacts q = f_contacts s1 -> f_objs q = f_objs s1 -> f_nv q = f_nv s1 ->
              f_k q = f_k s1 -> incl (f_motions q) (f_motions s) -> incl (f_forces q) (f_forces s) -> footprint asc q).
    { intros q Q1 Q2 Q3 Q4 Q5 Q6 Q7. eapply footprint_same_heap; [exact F|..]; auto; try congruence. }
    destruct (assert_ dbg b); [|discriminate].
    rewrite M1, M2, M3 in Ha.
    assert (I1 : incl (f_motions s1) (f_motions s)) by (rewrite M1; apply incl_refl).
    assert (I2 : incl (f_forces s1) (f_forces s)) by (rewrite M2; apply incl_refl).
    destruct (take_task name (f_motions s)) as [[t r]|] eqn:T1.
    { apply Tk in T1. destruct (tl_prio t =? 0); [destruct (tl_rows s1 t) as [[[] m]|]; [| | |discriminate]|];
        injection Ha as <-; apply Fin; auto. }
    destruct (take_task name (f_forces s)) as [[t r]|] eqn:T2.
    { apply Tk in T2. injection Ha as <-. apply Fin; auto. }
    destruct (take_task name (f_acts s)) as [[t r]|] eqn:T3.
    { destruct (tl_prio t =? 0); [destruct (tl_rows s1 t) as [[[] m]|]; [| | |discriminate]|];
        injection Ha as <-; apply Fin; auto. }
    injection Ha as <-. apply Fin; auto.
  - unfold remove_contact in Ha. destruct ((n0 <? dur)%num).
    + unfold find_contact in Ha. destruct (take_contact s name (f_contacts s)) as [[c r]|]; [|injection Ha as <-; exact F].
      destruct (cobj_at s (cl_obj c)); [|discriminate]. injection Ha as <-.
      eapply footprint_same_heap; [exact F|..]; try reflexivity; apply incl_refl.
    + destruct (remove_contact_now dbg s name) as [s1 b|s1|] eqn:E; [| |discriminate]; injection Ha as <-.
      * eapply remove_now_footprint; eauto.
      * unfold remove_contact_now in E.
        match type of E with match ?t with _ => _ end = _ => destruct t as [[? ?]|]; discriminate end.
  - unfold remove_meas in Ha. destruct (take_meas name (f_meas s)); injection Ha as <-; [|exact F].
    eapply footprint_same_heap; [exact F|..]; try reflexivity; apply incl_refl.
  - destruct HO as [Hp He]. unfold compute in Ha.
    assert (Ft : footprint asc (w_t s t)) by (eapply footprint_same_heap; [exact F|..]; try reflexivity; apply incl_refl).
    change (f_trans (w_t s t)) with (f_trans s) in Ha.
    destruct (run_transitions dbg (w_t s t) [] (f_trans s)) as [s1 u|s1|] eqn:E; [| |discriminate].
    + destruct (transitions_footprint asc _ _ _ s1 (invAB_time s t (conj HA HB)) Ft (f_equal after E)) as [[A1 B1] F1].
      destruct u.
      destruct (comp_fill s1 e) as [s2|] eqn:E2; [|discriminate]. injection Ha as <-.
      assert (S1 : invS s1).
      { destruct HS as [HS HT]. destruct (invAB_time s t (conj HA HB)) as [At Bt].
        destruct (transitions_safe dbg (f_trans s) (w_t s t) []) as (s1' & R & Z1 & Z2 & Z3); auto;
          [exact (is_cells _ HS)|].
        assert (s1' = s1) by (destruct R; congruence). subst s1'. apply (invS_rdata s); auto. }
      eapply data_footprint; [exact Has|]. eapply comp_fill_data; eauto.
    + injection Ha as <-.
      destruct (transitions_footprint asc _ _ _ s1 (invAB_time s t (conj HA HB)) Ft (f_equal after E)) as [_ F1]. exact F1.
  - unfold get in Ha. destruct (decode s x) as [s1|] eqn:E; [|discriminate].
    assert (F1 : footprint asc s1).
    { assert (S := decode_same _ _ _ E). eapply same_footprint; [exact S| |exact F].
      unfold decode in E. destruct (f_dec s); [injection E as <-; reflexivity|].
      repeat (ob E). injection E as <-. reflexivity. }
    destruct g; simpl in Ha; try (injection Ha as <-; exact F1).
    destruct (find_contact s1 name); [|injection Ha as <-; exact F1].
    destruct (vsegment _ _ _); [injection Ha as <-; exact F1|discriminate].
Qed.

End Zero.
