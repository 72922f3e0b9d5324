(** Per-call lemmas about the formulation: frames, add/remove round trips, weights,
    levels, rejected arguments (used by Prop_Formulation.v). *)
From Coq Require Import String List Arith Bool ZArith Lia Permutation.
From Verif Require Import Scalar Outcome Linalg Constraint Formulation ListUtil FormSpec FormInv FormInvB FormInvC.
Import ListNotations.
Open Scope string_scope.
Open Scope list_scope.
Open Scope nat_scope.

Section Ops.
Context {K : num}.
Variable dbg : bool.
Local Notation fstate := (fstate K).
Local Notation step := (step dbg).
Implicit Types (s : fstate) (h : list (constr K)) (w : K).

(** Field-wise equality of states. *)
Lemma fs_ext s s' :
  f_nv s = f_nv s' ->
  f_nu s = f_nu s' ->
  f_t s = f_t s' ->
  f_k s = f_k s' ->
  f_eq s = f_eq s' ->
  f_in s = f_in s' ->
  f_heap s = f_heap s' ->
  f_hqp s = f_hqp s' ->
  f_base s = f_base s' ->
  f_contacts s = f_contacts s' ->
  f_motions s = f_motions s' ->
  f_forces s = f_forces s' ->
  f_acts s = f_acts s' ->
  f_meas s = f_meas s' ->
  f_trans s = f_trans s' ->
  f_objs s = f_objs s' ->
  f_Jc s = f_Jc s' ->
  f_hfext s = f_hfext s' ->
  f_mass s = f_mass s' ->
  f_nle s = f_nle s' ->
  f_dec s = f_dec s' ->
  f_dv s = f_dv s' ->
  f_f s = f_f s' ->
  f_tau s = f_tau s' -> s = s'.
Proof. destruct s, s'; simpl; intros; subst; reflexivity. Qed.

(** ** Robot sizes never change *)
Definition dims s (nv nu : nat) : Prop := f_nv s = nv /\ f_nu s = nu.

Lemma erase_dims s n : f_nv (fst (erase_hqp s n)) = f_nv s /\ f_nu (fst (erase_hqp s n)) = f_nu s.
Proof. unfold erase_hqp. destruct (erase_levels _ _ _); auto. Qed.
Lemma erase3_dims s n : f_nv (erase3 s n) = f_nv s /\ f_nu (erase3 s n) = f_nu s.
Proof.
  unfold erase3. destruct (erase_dims s (n ++ "_motion_task")) as [A1 B1].
  set (s1 := fst (erase_hqp s _)) in *.
  destruct (erase_dims s1 (n ++ "_force_constraint")) as [A2 B2].
  set (s2 := fst (erase_hqp s1 _)) in *.
  destruct (erase_dims s2 (n ++ "_force_reg_task")) as [A3 B3]. split; congruence.
Qed.
Lemma resize_dims s s' : resize_hqp s = Some s' -> f_nv s' = f_nv s /\ f_nu s' = f_nu s.
Proof. unfold resize_hqp. intros H. repeat (ob H). injection H as <-. auto. Qed.
Lemma remove_now_dims s n s' b : remove_contact_now dbg s n = Ret s' b -> f_nv s' = f_nv s /\ f_nu s' = f_nu s.
Proof.
  intros H. apply remove_contact_now_spec in H. destruct (erase3_dims s n) as [A B].
  destruct H as [(_ & _ & ->)|(c & r & s4 & mr & fr & _ & _ & _ & Hr & ->)]; simpl.
  - auto.
  - apply resize_dims in Hr. simpl in Hr. destruct Hr; split; congruence.
Qed.
Lemma add_task_dims s n kd r w lvl s' a :
  add_task_cstr s n kd r w lvl = Some (s', a) -> f_nv s' = f_nv s /\ f_nu s' = f_nu s.
Proof.
  intros H. apply add_task_cstr_spec in H. destruct H as (? & ? & ? & _ & _ & _ & _ & _ & ->).
  simpl. destruct (lvl =? 0); [destruct (is_eq kd)|]; auto.
Qed.

Lemma dims_step s o s' nv nu : dims s nv nu -> after (step s o) = Some s' -> dims s' nv nu.
Proof.
  intros HD Ha. destruct o; simpl in Ha; try rewrite lift_after in Ha.
  - injection Ha as <-. exact HD.
  - destruct (obj_set_fmin s o f) as [s1 b1|s1|] eqn:E; [| |discriminate]; injection Ha as <-;
      unfold obj_set_fmin in E; destruct (cobj_at _ _); try discriminate;
      destruct (_ || _); try discriminate; injection E as <-; exact HD.
  - destruct (obj_set_fmax s o f) as [s1 b1|s1|] eqn:E; [| |discriminate]; injection Ha as <-;
      unfold obj_set_fmax in E; destruct (cobj_at _ _); try discriminate;
      destruct (_ || _); try discriminate; injection E as <-; exact HD.
  - unfold add_motion in Ha. destruct (args_ok w dur); [|injection Ha as <-; exact HD].
    destruct (add_task_cstr _ _ _ _ _ _) as [[s1 a]|] eqn:E; [|discriminate]. injection Ha as <-.
    apply add_task_dims in E. destruct HD, E; split; simpl; congruence.
  - unfold add_force in Ha. destruct (args_ok w dur); [|injection Ha as <-; exact HD].
    destruct (add_task_cstr _ _ _ _ _ _) as [[s1 a]|] eqn:E; [|discriminate]. injection Ha as <-.
    apply add_task_dims in E. destruct HD, E; split; simpl; congruence.
  - unfold add_act in Ha. destruct (args_ok w dur); [|injection Ha as <-; exact HD].
    destruct (add_task_cstr _ _ _ _ _ _) as [[s1 a]|] eqn:E; [|discriminate]. injection Ha as <-.
    apply add_task_dims in E. destruct HD, E; split; simpl; congruence.
  - unfold upd_task_weight in Ha. destruct (f_hqp s); [|destruct (upd_weight_levels _ _ _ _)];
      injection Ha as <-; exact HD.
  - destruct (add_contact s o wreg wmot lvl) as [s1 b1|s1|] eqn:E; [| |discriminate]; injection Ha as <-.
    + apply add_contact_spec in E. destruct E as (_ & x & s1' & q1 & q2 & q3 & _ & Hr & _ & _ & _ & ->).
      apply resize_dims in Hr. simpl in *. destruct HD, Hr; split; simpl; congruence.
    + exfalso; eapply add_contact_no_exc; eauto.
  - unfold upd_contact_weights in Ha. destruct (f_hqp s); [|destruct (upd_cw_levels _ _ _ _ _ _ _)];
      injection Ha as <-; exact HD.
  - injection Ha as <-. exact HD.
  - unfold remove_task in Ha. destruct (erase_dims s name) as [A B].
    destruct (erase_hqp s name) as [s1 f1]; simpl in A, B.
    assert (D1 : dims s1 nv nu) by (destruct HD; split; congruence).
    repeat match type of Ha with
      | after match ?x with _ => _ end = _ => destruct x; try discriminate
      | after (if ?x then _ else _) = _ => destruct x; try discriminate
      | after (let '(_, _) := ?x in _) = _ => destruct x
      end; injection Ha as <-; exact D1.
  - unfold remove_contact in Ha. destruct (_ <? _)%num.
    + destruct (find_contact s name); [|injection Ha as <-; exact HD].
      destruct (cobj_at _ _); [|discriminate]. injection Ha as <-. exact HD.
    + destruct (remove_contact_now dbg s name) as [s1 b1|s1|] eqn:E; [| |discriminate]; injection Ha as <-.
      * apply remove_now_dims in E. destruct HD, E; split; congruence.
      * exfalso; eapply remove_now_no_exc; eauto.
  - unfold remove_meas in Ha. destruct (take_meas _ _); injection Ha as <-; exact HD.
  - unfold compute in Ha.
    assert (HR : forall o1 s1, run_transitions dbg (w_t s t) [] (f_trans (w_t s t)) = o1 -> after o1 = Some s1 -> dims s1 nv nu).
    { intros o1 s1 E1 E2. eapply (run_transitions_inv dbg (fun s => dims s nv nu)); [| | | |exact E1|exact E2].
      - intros x y Hxy [X Y]. split; [rewrite (sm_nv _ _ Hxy)|rewrite (sm_nu _ _ Hxy)]; auto.
      - intros x l X; exact X.
      - intros x n y b [X Y] Hr. apply remove_now_dims in Hr. destruct Hr; split; congruence.
      - exact HD. }
    destruct (run_transitions dbg (w_t s t) [] (f_trans (w_t s t))) as [s1 u|s1|]; [| |discriminate].
    + destruct (comp_fill s1 e) as [s2|] eqn:E2; [|discriminate]. injection Ha as <-.
      apply comp_fill_same in E2. destruct (HR (Ret s1 u) s1 eq_refl eq_refl).
      split; [rewrite (sm_nv _ _ E2)|rewrite (sm_nu _ _ E2)]; auto.
    + injection Ha as <-. apply (HR (Exc s1) s1 eq_refl eq_refl).
  - unfold get in Ha. destruct (decode s x) as [s1|] eqn:E; [|discriminate]. apply decode_same in E.
    assert (H1 : dims s1 nv nu).
    { destruct HD. split; [rewrite (sm_nv _ _ E)|rewrite (sm_nu _ _ E)]; auto. }
    destruct g; try (injection Ha as <-; exact H1).
    destruct (find_contact s1 name); [|injection Ha as <-; exact H1].
    destruct (vsegment _ _ _); [|discriminate]. injection Ha as <-; exact H1.
Qed.

Lemma dims_reach nv na M0 H0 P s : reach step P (init nv na M0 H0) s -> dims s nv (nv - na).
Proof.
  intros Hr. apply (reach_inv step P (fun s => dims s nv (nv - na)) (init nv na M0 H0) s); auto.
  - split; reflexivity.
  - intros; eapply dims_step; eauto.
Qed.

(** ** Columns *)
Lemma columns s : invA s -> forall lvl e c, In lvl (hqp s) -> In e lvl -> snd e = Some c -> mcols (c_mat c) = nVar s.
Proof.
  intros HA lvl e c Hl He Hc. unfold hqp in Hl. apply in_map_iff in Hl. destruct Hl as (l & <- & Hl).
  apply in_map_iff in He. destruct He as (e0 & <- & He).
  assert (H := ia_cols _ HA). rewrite Forall_forall in H.
  destruct (H e0) as (nm0 & kd & r & E).
  { apply in_concat. eauto. }
  unfold deref in Hc; simpl in Hc. unfold shapes in E. rewrite nth_error_map, Hc in E. simpl in E.
  unfold shape in E. injection E; auto.
Qed.
Lemma no_dangling s : invA s -> forall lvl e, In lvl (hqp s) -> In e lvl -> exists c, snd e = Some c.
Proof.
  intros HA lvl e Hl He. unfold hqp in Hl. apply in_map_iff in Hl. destruct Hl as (l & <- & Hl).
  apply in_map_iff in He. destruct He as (e0 & <- & He).
  assert (H := ia_cols _ HA). rewrite Forall_forall in H.
  destruct (H e0) as (nm0 & kd & r & E).
  { apply in_concat. eauto. }
  unfold deref; simpl. unfold shapes in E. rewrite nth_error_map in E.
  destruct (nth_error (f_heap s) (snd e0)); [eauto|discriminate].
Qed.
Lemma nVar_sum s : invA s -> nVar s = f_nv s + sum_nat (map snd (slots s)).
Proof. intros HA. unfold nVar. f_equal. assert (T := ia_tile _ HA). apply tiles_sum in T. lia. Qed.

(** ** Order of the contacts *)
Lemma drops_one_map {A B} (f : A -> B) (p : B -> Prop) l1 x l2 :
  p (f x) -> drops_one p (map f (l1 ++ x :: l2)) (map f (l1 ++ l2)).
Proof. intros H. exists (map f l1), (f x), (map f l2). rewrite !map_app. auto. Qed.

Lemma resize_contacts s s' : resize_hqp s = Some s' -> f_contacts s' = f_contacts s /\ f_objs s' = f_objs s.
Proof. unfold resize_hqp. intros H. repeat (ob H). injection H as <-. auto. Qed.

Definition obj_named s (n : string) (o : nat) : Prop :=
  exists x, nth_error (f_objs s) o = Some x /\ co_name x = n.

Lemma cl_named s c n : cl_obj c < List.length (f_objs s) -> cl_name s c = n -> obj_named s n (cl_obj c).
Proof.
  unfold cl_name, cobj_at, obj_named. intros Hl Hn.
  destruct (nth_error (f_objs s) (cl_obj c)) as [x|] eqn:E; [eauto|].
  apply nth_error_None in E. lia.
Qed.

Lemma remove_now_order s n s' b : invA s -> remove_contact_now dbg s n = Ret s' b ->
  contact_objs s' = contact_objs s \/ drops_one (obj_named s n) (contact_objs s) (contact_objs s').
Proof.
  intros HA H. apply remove_contact_now_spec in H. destruct (erase3_frame s n) as (A & B & C & D).
  unfold contact_objs.
  destruct H as [(_ & _ & ->)|(c & r & s4 & mr & fr & Ht & _ & _ & Hr & ->)]; simpl.
  - left. rewrite reindex_shape by reflexivity. reflexivity.
  - right. rewrite reindex_shape by reflexivity.
    apply take_contact_spec in Ht. destruct Ht as (l1 & l2 & E1 & -> & En & _). rewrite E1.
    apply drops_one_map. apply cl_named; [|exact En].
    assert (O := ia_objs _ HA). rewrite Forall_forall in O. apply O. rewrite E1. apply in_elt.
Qed.

Lemma run_transitions_order todo : forall s dn o s', invA s ->
  run_transitions dbg s dn todo = o -> after o = Some s' ->
  contact_objs s' = contact_objs s \/ drops_one (fun _ => True) (contact_objs s) (contact_objs s').
Proof.
  induction todo as [|c todo IH]; simpl; intros s dn o s' HA Hr Ha.
  - subst o. injection Ha as <-. auto.
  - destruct (assert_ _ _); [|subst; discriminate].
    destruct (_ <=? _)%num.
    + destruct (obj_set_fmax s (tr_obj c) _) as [s1 b1|s1|] eqn:E; subst o.
      * apply set_fmax_same in E.
        destruct (IH s1 (dn ++ [c]) _ s' (invA_same _ _ E HA) eq_refl Ha) as [H|H];
          unfold contact_objs in *; rewrite (sm_con _ _ E) in H; auto.
      * injection Ha as <-. unfold obj_set_fmax in E. destruct (cobj_at _ _); [|discriminate].
        destruct (_ || _); [discriminate|]. injection E as <-. auto.
      * discriminate.
    + destruct (cobj_at s (tr_obj c)) as [x|]; [|subst; discriminate].
      destruct (remove_contact_now dbg s (co_name x)) as [s1 b1|s1|] eqn:E; subst o.
      * injection Ha as <-. destruct (remove_now_order _ _ _ _ HA E) as [H|H]; [auto|].
        right. destruct H as (l1 & y & l2 & X & Y & _). exists l1, y, l2. auto.
      * exfalso; eapply remove_now_no_exc; eauto.
      * discriminate.
Qed.

(** What a call may do to the list of contacts present. *)
Definition order_step s (o : fop K) s' : Prop :=
  match o with
  | OAddContact ob _ _ _ => contact_objs s' = contact_objs s ++ [ob]
  | ORemContact n _ =>
      contact_objs s' = contact_objs s \/ drops_one (obj_named s n) (contact_objs s) (contact_objs s')
  | OCompute _ _ =>
      contact_objs s' = contact_objs s \/ drops_one (fun _ => True) (contact_objs s) (contact_objs s')
  | _ => contact_objs s' = contact_objs s
  end.

Lemma order_of_step s o s' : invA s -> after (step s o) = Some s' -> order_step s o s'.
Proof.
  intros HA Ha. destruct o; simpl in Ha |- *; try rewrite lift_after in Ha.
  - injection Ha as <-. reflexivity.
  - destruct (obj_set_fmin s o f) as [s1 b1|s1|] eqn:E; [| |discriminate]; injection Ha as <-;
      unfold obj_set_fmin in E; destruct (cobj_at _ _); try discriminate;
      destruct (_ || _); try discriminate; injection E as <-; reflexivity.
  - destruct (obj_set_fmax s o f) as [s1 b1|s1|] eqn:E; [| |discriminate]; injection Ha as <-;
      unfold obj_set_fmax in E; destruct (cobj_at _ _); try discriminate;
      destruct (_ || _); try discriminate; injection E as <-; reflexivity.
  - unfold add_motion in Ha. destruct (args_ok w dur); [|injection Ha as <-; reflexivity].
    destruct (add_task_cstr _ _ _ _ _ _) as [[s1 a]|] eqn:E; [|discriminate]. injection Ha as <-.
    apply add_task_cstr_spec in E. destruct E as (? & ? & ? & _ & _ & _ & _ & _ & ->).
    unfold contact_objs; simpl. destruct (lvl =? 0); [destruct (is_eq kd)|]; reflexivity.
  - unfold add_force in Ha. destruct (args_ok w dur); [|injection Ha as <-; reflexivity].
    destruct (add_task_cstr _ _ _ _ _ _) as [[s1 a]|] eqn:E; [|discriminate]. injection Ha as <-.
    apply add_task_cstr_spec in E. destruct E as (? & ? & ? & _ & _ & _ & _ & _ & ->).
    unfold contact_objs; simpl. destruct (lvl =? 0); [destruct (is_eq kd)|]; reflexivity.
  - unfold add_act in Ha. destruct (args_ok w dur); [|injection Ha as <-; reflexivity].
    destruct (add_task_cstr _ _ _ _ _ _) as [[s1 a]|] eqn:E; [|discriminate]. injection Ha as <-.
    apply add_task_cstr_spec in E. destruct E as (? & ? & ? & _ & _ & _ & _ & _ & ->).
    unfold contact_objs; simpl. destruct (lvl =? 0); [destruct (is_eq kd)|]; reflexivity.
  - unfold upd_task_weight in Ha. destruct (f_hqp s); [|destruct (upd_weight_levels _ _ _ _)];
      injection Ha as <-; reflexivity.
  - destruct (add_contact s o wreg wmot lvl) as [s1 b1|s1|] eqn:E; [| |discriminate]; injection Ha as <-.
    + apply add_contact_spec in E. destruct E as (_ & x & s1' & q1 & q2 & q3 & _ & Hr & _ & _ & _ & ->).
      unfold contact_objs; simpl. rewrite map_app. reflexivity.
    + exfalso; eapply add_contact_no_exc; eauto.
  - unfold upd_contact_weights in Ha. destruct (f_hqp s); [|destruct (upd_cw_levels _ _ _ _ _ _ _)];
      injection Ha as <-; reflexivity.
  - injection Ha as <-. reflexivity.
  - unfold remove_task in Ha.
    assert (A : f_contacts (fst (erase_hqp s name)) = f_contacts s)
      by (unfold erase_hqp; destruct (erase_levels _ _ _); reflexivity).
    destruct (erase_hqp s name) as [s1 f1]; simpl in A.
    assert (D1 : contact_objs s1 = contact_objs s) by (unfold contact_objs; rewrite A; reflexivity).
    repeat match type of Ha with
      | after match ?x with _ => _ end = _ => destruct x; try discriminate
      | after (if ?x then _ else _) = _ => destruct x; try discriminate
      | after (let '(_, _) := ?x in _) = _ => destruct x
      end; injection Ha as <-; exact D1.
  - unfold remove_contact in Ha. destruct (_ <? _)%num.
    + left. destruct (find_contact s name); [|injection Ha as <-; reflexivity].
      destruct (cobj_at _ _); [|discriminate]. injection Ha as <-. reflexivity.
    + destruct (remove_contact_now dbg s name) as [s1 b1|s1|] eqn:E; [| |discriminate]; injection Ha as <-.
      * eapply remove_now_order; eauto.
      * exfalso; eapply remove_now_no_exc; eauto.
  - unfold remove_meas in Ha. destruct (take_meas _ _); injection Ha as <-; reflexivity.
  - unfold compute in Ha.
    assert (HA' : invA (w_t s t)) by (destruct HA; constructor; auto).
    assert (HR := fun o1 s1 => run_transitions_order (f_trans (w_t s t)) (w_t s t) [] o1 s1 HA').
    destruct (run_transitions dbg (w_t s t) [] (f_trans (w_t s t))) as [s1 u|s1|]; [| |discriminate].
    + destruct (comp_fill s1 e) as [s2|] eqn:E2; [|discriminate]. injection Ha as <-.
      apply comp_fill_same in E2. specialize (HR (Ret s1 u) s1 eq_refl eq_refl).
      unfold contact_objs in *. rewrite (sm_con _ _ E2). exact HR.
    + injection Ha as <-. apply (HR (Exc s1) s1 eq_refl eq_refl).
  - unfold get in Ha. destruct (decode s x) as [s1|] eqn:E; [|discriminate]. apply decode_same in E.
    assert (H1 : contact_objs s1 = contact_objs s) by (unfold contact_objs; rewrite (sm_con _ _ E); reflexivity).
    destruct g; try (injection Ha as <-; exact H1).
    destruct (find_contact s1 name); [|injection Ha as <-; exact H1].
    destruct (vsegment _ _ _); [|discriminate]. injection Ha as <-; exact H1.
Qed.

(** ** Priority levels *)
Lemma add_task_level s n kd r w lvl :
  (lvl < List.length (f_hqp s) -> exists s' a, add_task_cstr s n kd r w lvl = Some (s', a)) /\
  (List.length (f_hqp s) <= lvl -> add_task_cstr s n kd r w lvl = None).
Proof.
  unfold add_task_cstr, push_level. split; intros H.
  - assert (E : (List.length (f_hqp s) <? lvl) = false) by (apply Nat.ltb_ge; lia). rewrite E.
    destruct (nth_error (f_hqp s) lvl) eqn:E2; [|apply nth_error_None in E2; lia].
    simpl. eauto.
  - assert (E2 : nth_error (if List.length (f_hqp s) <? lvl then grow (f_hqp s) lvl else f_hqp s) lvl = None).
    { apply nth_error_None. destruct (Nat.ltb_spec (List.length (f_hqp s)) lvl).
      - unfold grow. rewrite app_length, repeat_length. lia.
      - lia. }
    rewrite E2. reflexivity.
Qed.

Lemma add_task_stored s n kd r w lvl s' a :
  add_task_cstr s n kd r w lvl = Some (s', a) ->
  lvl < List.length (f_hqp s) /\
  exists x, nth_error (f_hqp s) lvl = Some x /\
  s' = w_hqp (w_heap (if lvl =? 0 then
                  (if is_eq kd then w_eq s (f_eq s + Z.of_nat r)%Z else w_in s (f_in s + Z.of_nat r)%Z)
                else s) (f_heap s ++ [new_task_cstr n kd r (nVar s)]))
             (lupd (f_hqp s) lvl (x ++ [(w, List.length (f_heap s))])) /\
  a = List.length (f_heap s).
Proof.
  intros H. destruct (Nat.lt_ge_cases lvl (List.length (f_hqp s))) as [L|L].
  2:{ apply add_task_level with (n:=n) (kd:=kd) (r:=r) (w:=w) in L. congruence. }
  split; [exact L|].
  unfold add_task_cstr in H.
  assert (E : (List.length (f_hqp s) <? lvl) = false) by (apply Nat.ltb_ge; lia). rewrite E in H.
  ob H. injection H as <- <-. apply push_level_spec in E0. destruct E0 as (x & Hx & ->).
  exists x. split; [exact Hx|]. split; [|reflexivity].
  destruct kd; simpl; destruct (lvl =? 0); reflexivity.
Qed.

(** ** add task; remove task *)
Lemma name_at_old h c a : a < List.length h -> name_at (h ++ [c]) a = name_at h a.
Proof. intros H. unfold name_at. rewrite nth_error_app1 by exact H. reflexivity. Qed.
Lemma name_at_new h c : name_at (h ++ [c]) (List.length h) = c_name c.
Proof. unfold name_at. rewrite nth_error_app_new. reflexivity. Qed.

Lemma erase_level_app h n l e :
  Forall (fun e => name_at h (snd e) <> n) l -> name_at h (snd e) = n ->
  erase_level (K:=K) h n (l ++ [e]) = Some l.
Proof.
  intros Hf He. induction Hf as [|x l Hx Hf IH]; simpl.
  - rewrite He, String.eqb_refl. reflexivity.
  - apply String.eqb_neq in Hx. rewrite Hx, IH. reflexivity.
Qed.
Lemma erase_level_absent h n l :
  Forall (fun e => name_at h (snd e) <> n) l -> erase_level (K:=K) h n l = None.
Proof.
  intros Hf. induction Hf as [|x l Hx Hf IH]; simpl; [reflexivity|].
  apply String.eqb_neq in Hx. rewrite Hx, IH. reflexivity.
Qed.
Lemma erase_levels_push h n ls i x e :
  Forall (fun e => name_at h (snd e) <> n) (concat ls) -> name_at h (snd e) = n ->
  nth_error ls i = Some x -> erase_levels (K:=K) h n (lupd ls i (x ++ [e])) = Some ls.
Proof.
  revert i; induction ls as [|l ls IH]; intros [|i] Hf He Hx; simpl in *; try discriminate.
  - injection Hx as ->. apply Forall_app in Hf. destruct Hf as [Hf _].
    rewrite erase_level_app by assumption. reflexivity.
  - apply Forall_app in Hf. destruct Hf as [Hf1 Hf2].
    rewrite erase_level_absent by exact Hf1. rewrite (IH i) by assumption. reflexivity.
Qed.
Lemma take_task_app n l t :
  ~ In n (map tl_name l) -> tl_name t = n -> take_task n (l ++ [t]) = Some (t, l).
Proof.
  intros Hn Ht. induction l as [|x l IH]; simpl in *.
  - rewrite Ht, String.eqb_refl. reflexivity.
  - destruct (String.eqb_spec (tl_name x) n) as [E|E]; [exfalso; auto|].
    rewrite IH by auto. reflexivity.
Qed.
Lemma take_task_absent n l : ~ In n (map tl_name l) -> take_task n l = None.
Proof.
  intros Hn. induction l as [|x l IH]; simpl in *; [reflexivity|].
  destruct (String.eqb_spec (tl_name x) n) as [E|E]; [exfalso; auto|].
  rewrite IH by auto. reflexivity.
Qed.
Lemma fresh_task s n : invB s -> ~ In n (hqp_names s) -> ~ In n (map tl_name (tasks s)).
Proof.
  intros HB Hn Hi. apply Hn. rewrite hqp_names_addr. rewrite <- (task_names s HB) in Hi.
  apply in_map_iff in Hi. destruct Hi as (a & Ea & Hi). apply in_map_iff. exists a. split; [exact Ea|].
  eapply Permutation_in; [symmetry; apply (b_perm _ HB)|].
  unfold owners. right. apply in_or_app. left. exact Hi.
Qed.
Lemma fresh_entries s n c : invA s -> ~ In n (hqp_names s) ->
  Forall (fun e => name_at (f_heap s ++ [c]) (snd e) <> n) (concat (f_hqp s)).
Proof.
  intros HA Hn. assert (V := invA_valid s HA). unfold valid in V. rewrite Forall_forall in *.
  intros e He. rewrite name_at_old by (apply V; exact He). intros E. apply Hn.
  unfold hqp_names. apply in_map_iff. eauto.
Qed.
Lemma new_task_crows n kd r c : crows (new_task_cstr (K:=K) n kd r c) = Some r.
Proof. unfold crows. destruct kd; simpl; rewrite ?Nat.eqb_refl; reflexivity. Qed.
Lemma assert_true : assert_ dbg true = Some tt.
Proof. unfold assert_. destruct dbg; reflexivity. Qed.

Definition extended s s' : Prop := exists c, s' = w_heap s (f_heap s ++ [c]).

Lemma zadd (z r : Z) : (z + r - r = z)%Z. Proof. lia. Qed.

Lemma add_remove_task_common s n kd r w lvl s1 a t :
  invA s -> invB s -> ~ In n (hqp_names s) ->
  add_task_cstr s n kd r w lvl = Some (s1, a) -> t = mkTl (tl_task t) n lvl a ->
  erase_levels (f_heap s1) n (f_hqp s1) = Some (f_hqp s) /\
  tl_rows s1 t = Some (c_kind (new_task_cstr (K:=K) n kd r (nVar s)), r).
Proof.
  intros HA HB Hn Ha Ht. apply add_task_stored in Ha.
  destruct Ha as (L & x & Hx & -> & ->). simpl. split.
  - apply erase_levels_push with (x := x).
    + apply fresh_entries; assumption.
    + simpl. rewrite name_at_new. destruct kd; reflexivity.
    + exact Hx.
  - unfold tl_rows. rewrite Ht. cbn [f_heap w_hqp w_heap tl_cstr]. rewrite nth_error_app_new.
    cbn [obind]. rewrite new_task_crows. reflexivity.
Qed.

Lemma not_in_app {A} (x : A) l1 l2 : ~ In x (l1 ++ l2) -> ~ In x l1 /\ ~ In x l2.
Proof. intros H; split; intros Hi; apply H; apply in_or_app; auto. Qed.

Lemma add_remove_motion s id n kd r w lvl dur s1 b :
  invA s -> invB s -> ~ In n (hqp_names s) ->
  add_motion s id n kd r w lvl dur = Ret s1 b ->
  exists s2, remove_task dbg s1 n = Ret s2 true /\ extended s s2.
Proof.
  intros HA HB Hn H. unfold add_motion in H. destruct (args_ok w dur); [|discriminate].
  destruct (add_task_cstr s n kd r w lvl) as [[s0 a]|] eqn:E; [|discriminate]. injection H as <- <-.
  destruct (add_remove_task_common s n kd r w lvl s0 a (mkTl id n lvl a) HA HB Hn E eq_refl) as [H1 H2].
  assert (HT := fresh_task s n HB Hn). unfold tasks in HT. rewrite !map_app in HT.
  apply not_in_app in HT. destruct HT as [HT1 HT2].
  apply add_task_stored in E. destruct E as (L & x & Hx & Es & Ea).
  assert (Em : f_motions s0 = f_motions s).
  { rewrite Es; simpl. destruct (lvl =? 0); [destruct (is_eq kd)|]; reflexivity. }
  unfold remove_task, erase_hqp. cbn [f_heap f_hqp w_motions]. rewrite H1, assert_true.
  cbn [f_motions w_motions w_hqp]. rewrite Em.
  rewrite (take_task_app n (f_motions s)) by auto. cbn [tl_prio].
  match goal with |- context [tl_rows ?S ?T] => change (tl_rows S T) with (tl_rows s0 T) end.
  rewrite H2. rewrite Es. clear H1 H2 Es Em.
  assert (Hk : c_kind (new_task_cstr (K:=K) n kd r (nVar s)) = match kd with CEq => CEq | _ => CIneq end)
    by (destruct kd; reflexivity).
  rewrite Hk. clear Hk. generalize (new_task_cstr (K:=K) n kd r (nVar s)). intros c.
  generalize (lupd (f_hqp s) lvl (x ++ [(w, List.length (f_heap s))])). intros q.
  unfold extended. destruct (lvl =? 0) eqn:El; [destruct kd|]; cbn [is_eq];
    (eexists; split; [reflexivity|]); exists c; apply fs_ext; try reflexivity;
    apply zadd.
Qed.

Lemma add_remove_act s id n kd r w lvl dur s1 b :
  invA s -> invB s -> ~ In n (hqp_names s) ->
  add_act s id n kd r w lvl dur = Ret s1 b ->
  exists s2, remove_task dbg s1 n = Ret s2 true /\ extended s s2.
Proof.
  intros HA HB Hn H. unfold add_act in H. destruct (args_ok w dur); [|discriminate].
  destruct (add_task_cstr s n kd r w lvl) as [[s0 a]|] eqn:E; [|discriminate]. injection H as <- <-.
  destruct (add_remove_task_common s n kd r w lvl s0 a (mkTl id n lvl a) HA HB Hn E eq_refl) as [H1 H2].
  assert (HT := fresh_task s n HB Hn). unfold tasks in HT. rewrite !map_app in HT.
  apply not_in_app in HT. destruct HT as [HT1 HT2]. apply not_in_app in HT2. destruct HT2 as [HT2 HT3].
  apply add_task_stored in E. destruct E as (L & x & Hx & Es & Ea).
  assert (Em : f_motions s0 = f_motions s /\ f_forces s0 = f_forces s /\ f_acts s0 = f_acts s).
  { rewrite Es; simpl. destruct (lvl =? 0); [destruct (is_eq kd)|]; auto. }
  destruct Em as (Em & Ef & Ec).
  unfold remove_task, erase_hqp. cbn [f_heap f_hqp w_acts]. rewrite H1, assert_true.
  cbn [f_motions f_forces f_acts w_acts w_hqp]. rewrite Em, Ef, Ec.
  rewrite (take_task_absent n (f_motions s)), (take_task_absent n (f_forces s)) by auto.
  rewrite (take_task_app n (f_acts s)) by auto. cbn [tl_prio].
  match goal with |- context [tl_rows ?S ?T] => change (tl_rows S T) with (tl_rows s0 T) end.
  rewrite H2. rewrite Es. clear H1 H2 Es Em Ef Ec.
  assert (Hk : c_kind (new_task_cstr (K:=K) n kd r (nVar s)) = match kd with CEq => CEq | _ => CIneq end)
    by (destruct kd; reflexivity).
  rewrite Hk. clear Hk. generalize (new_task_cstr (K:=K) n kd r (nVar s)). intros c.
  generalize (lupd (f_hqp s) lvl (x ++ [(w, List.length (f_heap s))])). intros q.
  unfold extended. destruct (lvl =? 0) eqn:El; [destruct kd|]; cbn [is_eq];
    (eexists; split; [reflexivity|]); exists c; apply fs_ext; try reflexivity;
    apply zadd.
Qed.

(** Force tasks: only when their level is not 0. *)
Lemma add_remove_force s id n kd r w lvl dur s1 b :
  invA s -> invB s -> ~ In n (hqp_names s) -> lvl <> 0 ->
  add_force s id n kd r w lvl dur = Ret s1 b ->
  exists s2, remove_task dbg s1 n = Ret s2 true /\ extended s s2.
Proof.
  intros HA HB Hn Hl H. unfold add_force in H. destruct (args_ok w dur); [|discriminate].
  destruct (add_task_cstr s n kd r w lvl) as [[s0 a]|] eqn:E; [|discriminate]. injection H as <- <-.
  destruct (add_remove_task_common s n kd r w lvl s0 a (mkTl id n lvl a) HA HB Hn E eq_refl) as [H1 H2].
  assert (HT := fresh_task s n HB Hn). unfold tasks in HT. rewrite !map_app in HT.
  apply not_in_app in HT. destruct HT as [HT1 HT2]. apply not_in_app in HT2. destruct HT2 as [HT2 HT3].
  apply add_task_stored in E. destruct E as (L & x & Hx & Es & Ea).
  apply Nat.eqb_neq in Hl. rewrite Hl in Es.
  unfold remove_task, erase_hqp. cbn [f_heap f_hqp w_forces]. rewrite H1, assert_true.
  cbn [f_motions f_forces w_forces w_hqp]. rewrite Es. cbn [f_motions f_forces w_forces w_hqp w_heap].
  rewrite (take_task_absent n (f_motions s)) by auto.
  rewrite (take_task_app n (f_forces s)) by auto.
  unfold extended. eexists; split; [reflexivity|].
  exists (new_task_cstr n kd r (nVar s)). apply fs_ext; reflexivity.
Qed.

(** What an extended heap leaves unchanged. *)
Lemma extended_obs s s' : invA s -> extended s s' ->
  hqp s' = hqp s /\ nVar s' = nVar s /\ nEq s' = nEq s /\ nIn s' = nIn s /\ slots s' = slots s.
Proof.
  intros HA [c ->]. repeat split. unfold hqp; simpl.
  apply map_ext_in. intros l Hl. apply map_ext_in. intros e He. unfold deref; simpl.
  assert (V := invA_valid s HA). unfold valid in V. rewrite Forall_forall in V.
  rewrite nth_error_app1; [reflexivity|]. apply V. apply in_concat. eauto.
Qed.

(** ** First match *)
Lemma erase_levels_first h n ls ls' :
  erase_levels (K:=K) h n ls = Some ls' ->
  exists i l1 e l2, nth_error ls i = Some (l1 ++ e :: l2) /\ ls' = lupd ls i (l1 ++ l2) /\
    name_at h (snd e) = n /\ Forall (fun e => name_at h (snd e) <> n) l1 /\
    (forall i' l, i' < i -> nth_error ls i' = Some l -> Forall (fun e => name_at h (snd e) <> n) l).
Proof.
  revert ls'; induction ls as [|l ls IH]; simpl; intros ls' H; [discriminate|].
  destruct (erase_level h n l) as [l'|] eqn:E.
  - injection H as <-. apply erase_level_spec in E. destruct E as (l1 & e & l2 & -> & -> & En & Hf).
    exists 0, l1, e, l2. simpl. repeat split; auto. intros; lia.
  - destruct (erase_levels h n ls) as [r|]; [|discriminate]. injection H as <-.
    destruct (IH r eq_refl) as (i & l1 & e & l2 & H1 & -> & H2 & H3 & H4).
    exists (S i), l1, e, l2. repeat split; auto.
    intros [|i'] l0 Hi Hl; simpl in Hl.
    + injection Hl as <-. apply erase_level_none; exact E.
    + eapply H4; [|exact Hl]. lia.
Qed.

Lemma upd_level_first h n w l l' :
  upd_weight_level (K:=K) h n w l = Some l' ->
  exists l1 e l2, l = l1 ++ e :: l2 /\ l' = l1 ++ (w, snd e) :: l2 /\ name_at h (snd e) = n /\
    Forall (fun e => name_at h (snd e) <> n) l1.
Proof.
  revert l'; induction l as [|x l IH]; simpl; intros l' H; [discriminate|].
  destruct (String.eqb_spec (name_at h (snd x)) n) as [E|E].
  - injection H as <-. exists [], x, l. auto.
  - destruct (upd_weight_level h n w l) as [r|]; [|discriminate]. injection H as <-.
    destruct (IH r eq_refl) as (l1 & e & l2 & -> & -> & H1 & H2).
    exists (x :: l1), e, l2. repeat split; auto.
Qed.
Lemma upd_level_none h n w l :
  upd_weight_level (K:=K) h n w l = None -> Forall (fun e => name_at h (snd e) <> n) l.
Proof.
  induction l as [|x l IH]; simpl; intros H; [constructor|].
  destruct (String.eqb_spec (name_at h (snd x)) n) as [E|E]; [discriminate|].
  destruct (upd_weight_level h n w l); [discriminate|]. constructor; auto.
Qed.
Lemma upd_levels_first h n w ls ls' :
  upd_weight_levels (K:=K) h n w ls = Some ls' ->
  exists i l1 e l2, nth_error ls i = Some (l1 ++ e :: l2) /\ ls' = lupd ls i (l1 ++ (w, snd e) :: l2) /\
    name_at h (snd e) = n /\ Forall (fun e => name_at h (snd e) <> n) l1 /\
    (forall i' l, i' < i -> nth_error ls i' = Some l -> Forall (fun e => name_at h (snd e) <> n) l).
Proof.
  revert ls'; induction ls as [|l ls IH]; simpl; intros ls' H; [discriminate|].
  destruct (upd_weight_level h n w l) as [l'|] eqn:E.
  - injection H as <-. apply upd_level_first in E. destruct E as (l1 & e & l2 & -> & -> & En & Hf).
    exists 0, l1, e, l2. simpl. repeat split; auto. intros; lia.
  - destruct (upd_weight_levels h n w ls) as [r|]; [|discriminate]. injection H as <-.
    destruct (IH r eq_refl) as (i & l1 & e & l2 & H1 & -> & H2 & H3 & H4).
    exists (S i), l1, e, l2. repeat split; auto.
    intros [|i'] l0 Hi Hl; simpl in Hl.
    + injection Hl as <-. eapply upd_level_none; exact E.
    + eapply H4; [|exact Hl]. lia.
Qed.
Lemma upd_levels_none h n w ls :
  upd_weight_levels (K:=K) h n w ls = None -> Forall (fun e => name_at h (snd e) <> n) (concat ls).
Proof.
  induction ls as [|l ls IH]; simpl; intros H; [constructor|].
  destruct (upd_weight_level h n w l) as [l'|] eqn:E; [discriminate|].
  destruct (upd_weight_levels h n w ls); [discriminate|].
  apply Forall_app. split; [eapply upd_level_none; exact E|auto].
Qed.

Lemma deref_name s e n : snd e < List.length (f_heap s) ->
  (entry_name (deref s e) = Some n <-> name_at (f_heap s) (snd e) = n).
Proof.
  intros H. unfold entry_name, deref, name_at; simpl.
  destruct (nth_error (f_heap s) (snd e)) eqn:E; simpl.
  - split; [intros X; injection X; auto|intros ->; reflexivity].
  - apply nth_error_None in E. lia.
Qed.

Lemma nth_hqp s i l : nth_error (hqp s) i = Some l <->
  exists l0, nth_error (f_hqp s) i = Some l0 /\ l = map (deref s) l0.
Proof.
  unfold hqp. rewrite nth_error_map. destruct (nth_error (f_hqp s) i); simpl; split; intros H.
  - injection H as <-. eauto.
  - destruct H as (l1 & E & ->). congruence.
  - discriminate.
  - destruct H as (? & ? & _); discriminate.
Qed.

Lemma valid_level s i l e : valid s -> nth_error (f_hqp s) i = Some l -> In e l -> snd e < List.length (f_heap s).
Proof.
  intros V Hl He. unfold valid in V. rewrite Forall_forall in V. apply V.
  apply in_concat. exists l. split; [eapply nth_error_In; eauto|exact He].
Qed.

(** Transfer of "first match" from addresses to the visible HQP. *)
Lemma first_transfer s i0 n i l1 e l2 :
  valid s -> i0 <= i ->
  nth_error (f_hqp s) i = Some (l1 ++ e :: l2) -> name_at (f_heap s) (snd e) = n ->
  Forall (fun e => name_at (f_heap s) (snd e) <> n) l1 ->
  (forall i' l, i0 <= i' -> i' < i -> nth_error (f_hqp s) i' = Some l ->
     Forall (fun e => name_at (f_heap s) (snd e) <> n) l) ->
  first_at i0 n (hqp s) i (List.length l1).
Proof.
  intros V Hi Hl En Hf Hp. split; [exact Hi|]. split.
  - exists (map (deref s) (l1 ++ e :: l2)), (deref s e). split; [apply nth_hqp; eauto|]. split.
    + rewrite nth_error_map, nth_error_app2 by lia. rewrite Nat.sub_diag. reflexivity.
    + apply deref_name; [|exact En]. eapply valid_level; [exact V|exact Hl|]. apply in_elt.
  - intros i' j' l x Hi' Hl' Hj' Hx. apply nth_hqp in Hl'. destruct Hl' as (l0 & Hl0 & ->).
    rewrite nth_error_map in Hj'. destruct (nth_error l0 j') as [x0|] eqn:Ej; [|discriminate].
    injection Hj' as <-. apply deref_name in Hx.
    2:{ eapply valid_level; [exact V|exact Hl0|]. eapply nth_error_In; exact Ej. }
    destruct (Nat.lt_trichotomy i i') as [L|[E|L]]; [auto| |].
    + right. split; [exact E|]. subst i'. rewrite Hl in Hl0. injection Hl0 as <-.
      destruct (Nat.lt_ge_cases j' (List.length l1)) as [Lj|Lj]; [|exact Lj].
      rewrite nth_error_app1 in Ej by exact Lj. apply nth_error_In in Ej.
      rewrite Forall_forall in Hf. exfalso; eapply Hf; eauto.
    + assert (Hq := Hp i' l0 Hi' L Hl0). rewrite Forall_forall in Hq.
      apply nth_error_In in Ej. exfalso; eapply Hq; eauto.
Qed.

Lemma absent_transfer s i0 n :
  valid s -> (forall i l, i0 <= i -> nth_error (f_hqp s) i = Some l ->
                Forall (fun e => name_at (f_heap s) (snd e) <> n) l) ->
  absent_from i0 n (hqp s).
Proof.
  intros V H i l e Hi Hl He Hn. apply nth_hqp in Hl. destruct Hl as (l0 & Hl0 & ->).
  apply in_map_iff in He. destruct He as (e0 & <- & He).
  apply deref_name in Hn; [|eapply valid_level; eauto].
  assert (Hq := H i l0 Hi Hl0). rewrite Forall_forall in Hq. eapply Hq; eauto.
Qed.

Lemma Forall_concat_nth {A} (P : A -> Prop) (ls : list (list A)) i l :
  Forall P (concat ls) -> nth_error ls i = Some l -> Forall P l.
Proof.
  rewrite !Forall_forall. intros H Hl x Hx. apply H. apply in_concat. exists l.
  split; [eapply nth_error_In; eauto|exact Hx].
Qed.

Lemma lupd_at {A} (l1 : list A) x y l2 : lupd (l1 ++ x :: l2) (List.length l1) y = l1 ++ y :: l2.
Proof. induction l1; simpl; congruence. Qed.
Lemma firstn_at {A} (l1 : list A) l2 : firstn (List.length l1) (l1 ++ l2) = l1.
Proof. induction l1; simpl; [reflexivity|congruence]. Qed.
Lemma skipn_at {A} (l1 : list A) x l2 : skipn (S (List.length l1)) (l1 ++ x :: l2) = l2.
Proof. induction l1; simpl in *; auto. Qed.

(** removeTask: exactly the first entry of that name goes. *)
Lemma erase_hqp_obs s n : valid s ->
  (snd (erase_hqp s n) = false /\ absent_from 0 n (hqp s) /\ fst (erase_hqp s n) = s) \/
  (snd (erase_hqp s n) = true /\
   exists i j, first_at 0 n (hqp s) i j /\ hqp (fst (erase_hqp s n)) = del_at (hqp s) i j).
Proof.
  intros V. unfold erase_hqp. destruct (erase_levels (f_heap s) n (f_hqp s)) as [ls|] eqn:E; simpl.
  - right. split; [reflexivity|].
    apply erase_levels_first in E. destruct E as (i & l1 & e & l2 & H1 & -> & H2 & H3 & H4).
    exists i, (List.length l1). split.
    + eapply first_transfer; eauto. lia.
    + unfold del_at. assert (Hh : nth_error (hqp s) i = Some (map (deref s) (l1 ++ e :: l2))) by (apply nth_hqp; eauto).
      rewrite Hh. unfold hqp at 1. simpl. rewrite map_lupd. unfold hqp.
      change (deref (w_hqp s (lupd (f_hqp s) i (l1 ++ l2)))) with (deref s).
      f_equal.
      assert (F : forall k, k = List.length (map (deref s) l1) ->
        firstn k (map (deref s) (l1 ++ e :: l2)) ++ skipn (S k) (map (deref s) (l1 ++ e :: l2))
        = map (deref s) (l1 ++ l2)).
      { intros k ->. rewrite !map_app. cbn [map]. rewrite firstn_at, skipn_at. reflexivity. }
      symmetry. apply F. symmetry. apply map_length.
  - left. split; [reflexivity|]. split; [|reflexivity].
    apply erase_levels_none in E. apply absent_transfer; [exact V|].
    intros i l _ Hl. eapply Forall_concat_nth; eauto.
Qed.

Lemma remove_task_frame s n s' b : valid s -> remove_task dbg s n = Ret s' b ->
  ((absent_from 0 n (hqp s) /\ hqp s' = hqp s) \/
   (exists i j, first_at 0 n (hqp s) i j /\ hqp s' = del_at (hqp s) i j)) /\
  nVar s' = nVar s /\ slots s' = slots s /\ f_meas s' = f_meas s /\ f_trans s' = f_trans s.
Proof.
  intros V H.
  assert (F : hqp s' = hqp (fst (erase_hqp s n)) /\ nVar s' = nVar s /\ slots s' = slots s /\
              f_meas s' = f_meas s /\ f_trans s' = f_trans s).
  { unfold remove_task in H.
    assert (A : f_contacts (fst (erase_hqp s n)) = f_contacts s /\ f_objs (fst (erase_hqp s n)) = f_objs s /\
                f_nv (fst (erase_hqp s n)) = f_nv s /\ f_k (fst (erase_hqp s n)) = f_k s /\
                f_meas (fst (erase_hqp s n)) = f_meas s /\ f_trans (fst (erase_hqp s n)) = f_trans s)
      by (unfold erase_hqp; destruct (erase_levels _ _ _); auto 10).
    destruct (erase_hqp s n) as [s1 f1]; simpl in A |- *.
    destruct A as (A1 & A2 & A3 & A4 & A5 & A6).
    assert (D1 : nVar s1 = nVar s /\ slots s1 = slots s).
    { unfold nVar, slots. rewrite A1, A3, A4. split; [reflexivity|].
      apply map_ext. intros c. f_equal. apply nforce_objs; exact A2. }
    destruct D1 as [D1 D2].
    repeat match type of H with
      | match ?x with _ => _ end = _ => destruct x; try discriminate
      | (if ?x then _ else _) = _ => destruct x; try discriminate
      | (let '(_, _) := ?x in _) = _ => destruct x
      end; injection H as <- _; repeat split; auto. }
  destruct F as (F1 & F2 & F3 & F4 & F5). split; [|auto].
  destruct (erase_hqp_obs s n V) as [(_ & Ha & Hs)|(_ & i & j & Hf & Hd)].
  - left. split; [exact Ha|]. rewrite F1, Hs. reflexivity.
  - right. exists i, j. split; [exact Hf|]. congruence.
Qed.

(** updateTaskWeight. *)
Lemma upd_task_weight_obs s n w s' b : valid s -> upd_task_weight s n w = (s', b) ->
  (b = false /\ absent_from 1 n (hqp s) /\ s' = s) \/
  (b = true /\ exists i j, first_at 1 n (hqp s) i j /\
     (exists l w0 c, nth_error (hqp s) i = Some l /\ nth_error l j = Some (w0, c) /\
                     hqp s' = put_at (hqp s) i j (w, c)) /\
     s' = w_hqp s (f_hqp s')).
Proof.
  intros V H. unfold upd_task_weight in H. destruct (f_hqp s) as [|l0 ls] eqn:Eh.
  - injection H as <- <-. left. split; [reflexivity|]. split; [|reflexivity].
    apply absent_transfer; [exact V|]. rewrite Eh. intros [|i] l _ Hl; discriminate.
  - destruct (upd_weight_levels (f_heap s) n w ls) as [ls'|] eqn:E; injection H as <- <-.
    + right. split; [reflexivity|]. apply upd_levels_first in E.
      destruct E as (i & l1 & e & l2 & H1 & -> & H2 & H3 & H4).
      exists (S i), (List.length l1). split; [|split].
      * eapply first_transfer; eauto; [lia|rewrite Eh; exact H1|].
        rewrite Eh. intros [|i'] l Hi Hl Hn; [lia|]. eapply H4; [|exact Hn]. lia.
      * exists (map (deref s) (l1 ++ e :: l2)), (fst e), (nth_error (f_heap s) (snd e)).
        split; [apply nth_hqp; rewrite Eh; eauto|]. split.
        -- rewrite nth_error_map, nth_error_app2 by lia. rewrite Nat.sub_diag. reflexivity.
        -- unfold put_at. assert (Hh : nth_error (hqp s) (S i) = Some (map (deref s) (l1 ++ e :: l2)))
             by (apply nth_hqp; rewrite Eh; eauto).
           rewrite Hh. unfold hqp. simpl. rewrite Eh. simpl. f_equal.
           change (deref (w_hqp s (l0 :: lupd ls i (l1 ++ (w, snd e) :: l2)))) with (deref s).
           rewrite map_lupd. f_equal. rewrite !map_app. simpl map.
           replace (List.length l1) with (List.length (map (deref s) l1)) by apply map_length.
           rewrite lupd_at. reflexivity.
      * reflexivity.
    + left. split; [reflexivity|]. split; [|reflexivity].
      apply upd_levels_none in E. apply absent_transfer; [exact V|]. rewrite Eh.
      intros [|i] l Hi Hl; [lia|]. simpl in Hl. eapply Forall_concat_nth; eauto.
Qed.

(** ** updateRigidContactWeights *)
Section CW.
Variables (h : list (constr K)) (n : string) (wf wm : K).
Hypothesis Hnan : (wm <? n0)%num = negb (n0 <=? wm)%num.
Let R := (n ++ "_force_reg_task")%string.
Let M := (n ++ "_motion_task")%string.
Let nme (e : K * nat) := name_at h (snd e).
Definition rw (e : K * nat) : K * nat :=
  if String.eqb (nme e) R && (n0 <=? wf)%num then (wf, snd e)
  else if String.eqb (nme e) M && (n0 <=? wm)%num then (wm, snd e) else e.
Definition has (m : string) (l : list (K * nat)) : bool := existsb (fun e => String.eqb (nme e) m) l.

Lemma has_In m l : has m l = true <-> In m (map nme l).
Proof.
  unfold has. rewrite existsb_exists, in_map_iff. split; intros (e & H1 & H2); exists e.
  - apply String.eqb_eq in H2. auto.
  - split; [exact H2|]. apply String.eqb_eq; exact H1.
Qed.
Lemma has_app m l1 l2 : has m (l1 ++ l2) = has m l1 || has m l2.
Proof. apply existsb_app. Qed.

Lemma MR : String.eqb M R = false.
Proof. apply String.eqb_neq. apply sfx_mr. Qed.

Lemma rw_id l : has R l = false -> (has M l = false \/ (n0 <=? wm)%num = false) -> map rw l = l.
Proof.
  induction l as [|e l IH]; simpl; intros HR HM; [reflexivity|].
  apply orb_false_iff in HR. destruct HR as [HR1 HR2].
  rewrite IH; [|exact HR2|destruct HM as [HM|HM]; [left; apply orb_false_iff in HM; tauto|auto]].
  f_equal. unfold rw. rewrite HR1. simpl.
  destruct HM as [HM|HM]; [apply orb_false_iff in HM; destruct HM as [HM _]; rewrite HM; reflexivity|].
  rewrite HM, andb_false_r. reflexivity.
Qed.

Lemma nodup_has m e l : NoDup (map nme (e :: l)) -> nme e = m -> has m l = false.
Proof.
  intros H E. simpl in H. inversion H; subst. destruct (has (nme e) l) eqn:X; [|reflexivity].
  apply has_In in X. contradiction.
Qed.

Lemma cw_level l : forall ff mf,
  NoDup (map nme l) -> (ff = true -> has R l = false) -> (mf = true -> has M l = false) ->
  ff && mf = false -> (ff = true -> (wm <? n0)%num = false) ->
  upd_cw_level h n wf wm l ff mf =
  (map rw l, if (ff || has R l) && (mf || has M l || (wm <? n0)%num) then inr tt
             else inl (ff || has R l, mf || has M l)).
Proof.
  induction l as [|e l IH]; intros ff mf Hnd HfR HmM Hb Hw.
  - simpl. rewrite !orb_false_r. destruct ff; simpl.
    + rewrite Hw by reflexivity. simpl in Hb. subst mf. reflexivity.
    + reflexivity.
  - assert (Hnd' : NoDup (map nme l)) by (simpl in Hnd; inversion Hnd; assumption).
    cbn [upd_cw_level]. fold R M. fold (nme e).
    assert (Hc : forall m, has m (e :: l) = String.eqb (nme e) m || has m l) by reflexivity.
    rewrite !Hc in *. cbn [map]. unfold rw at 1.
    destruct (String.eqb (nme e) R) eqn:ER; cbn [andb orb] in *.
    + assert (Eff : ff = false) by (destruct ff; auto; specialize (HfR eq_refl); discriminate).
      subst ff. apply String.eqb_eq in ER.
      assert (HRl := nodup_has R e l Hnd ER).
      assert (EM : String.eqb (nme e) M = false).
      { apply String.eqb_neq. rewrite ER. intros X. symmetry in X. revert X. apply sfx_mr. }
      rewrite EM in *. cbn [andb orb] in *.
      assert (Ee : (if (n0 <=? wf)%num then (wf, snd e) else e) = (if (n0 <=? wf)%num then (wf, snd e) else e)) by reflexivity.
      destruct (mf || (wm <? n0)%num) eqn:Em.
      * rewrite rw_id; [|exact HRl|].
        2:{ apply orb_true_iff in Em. destruct Em as [Em|Em]; [left; apply HmM; exact Em|right].
            rewrite Hnan in Em. apply negb_true_iff in Em. exact Em. }
        f_equal. destruct mf; simpl in *; [reflexivity|].
        rewrite Em, orb_true_r. reflexivity.
      * apply orb_false_iff in Em. destruct Em as [-> Em].
        rewrite (IH true false); auto; try discriminate.
    + destruct (String.eqb (nme e) M) eqn:EM; cbn [andb orb] in *.
      * assert (Emf : mf = false) by (destruct mf; auto; specialize (HmM eq_refl); discriminate).
        subst mf. apply String.eqb_eq in EM. assert (HMl := nodup_has M e l Hnd EM).
        destruct ff.
        -- rewrite rw_id; [|apply HfR; reflexivity|left; exact HMl]. reflexivity.
        -- rewrite (IH false true); auto; try discriminate.
      * rewrite (IH ff mf); auto.
Qed.

Lemma cw_levels ls : forall ff mf,
  NoDup (map nme (concat ls)) -> (ff = true -> has R (concat ls) = false) ->
  (mf = true -> has M (concat ls) = false) ->
  ff && mf = false -> (ff = true -> (wm <? n0)%num = false) ->
  upd_cw_levels h n wf wm ls ff mf =
  (map (map rw) ls, (ff || has R (concat ls)) && (mf || has M (concat ls) || (wm <? n0)%num)).
Proof.
  induction ls as [|l ls IH]; intros ff mf Hnd HfR HmM Hb Hw.
  - simpl. rewrite !orb_false_r. destruct ff; simpl; [|reflexivity].
    rewrite Hw by reflexivity. simpl in Hb. subst mf. reflexivity.
  - simpl concat in *. rewrite map_app in Hnd. rewrite !has_app in *.
    assert (HD : forall m, has m l = true -> has m (concat ls) = true -> False).
    { intros m X Y. apply has_In in X. apply has_In in Y. eapply NoDup_app_inv; eauto. }
    assert (HfR' : ff = true -> has R l = false /\ has R (concat ls) = false)
      by (intros X; apply orb_false_iff; auto).
    assert (HmM' : mf = true -> has M l = false /\ has M (concat ls) = false)
      by (intros X; apply orb_false_iff; auto).
    cbn [upd_cw_levels]. rewrite cw_level; auto;
      [|eapply NoDup_app_l; exact Hnd|intros X; apply HfR'; exact X|intros X; apply HmM'; exact X].
    destruct ((ff || has R l) && (mf || has M l || (wm <? n0)%num)) eqn:EE.
    + apply andb_true_iff in EE. destruct EE as [E1 E2].
      assert (HRc : has R (concat ls) = false).
      { apply orb_true_iff in E1. destruct E1 as [E1|E1]; [apply HfR'; exact E1|].
        destruct (has R (concat ls)) eqn:X; [exfalso; eapply HD; eauto|reflexivity]. }
      assert (HMc : has M (concat ls) = false \/ (n0 <=? wm)%num = false).
      { apply orb_true_iff in E2. destruct E2 as [E2|E2].
        - left. apply orb_true_iff in E2. destruct E2 as [E2|E2]; [apply HmM'; exact E2|].
          destruct (has M (concat ls)) eqn:X; [exfalso; eapply HD; eauto|reflexivity].
        - right. rewrite Hnan in E2. apply negb_true_iff in E2. exact E2. }
      assert (Hid : map (map rw) ls = ls).
      { rewrite <- (map_id ls) at 2. apply map_ext_in. intros l0 Hl0. apply rw_id.
        - destruct (has R l0) eqn:X; [|reflexivity]. apply has_In in X.
          assert (Y : has R (concat ls) = true); [|congruence]. apply has_In.
          apply in_map_iff in X. destruct X as (e & Ee & He). apply in_map_iff. exists e.
          split; [exact Ee|]. apply in_concat; eauto.
        - destruct HMc as [HMc|HMc]; [left|auto].
          destruct (has M l0) eqn:X; [|reflexivity]. apply has_In in X.
          assert (Y : has M (concat ls) = true); [|congruence]. apply has_In.
          apply in_map_iff in X. destruct X as (e & Ee & He). apply in_map_iff. exists e.
          split; [exact Ee|]. apply in_concat; eauto. }
      cbn [map]. rewrite Hid. f_equal. rewrite HRc, orb_false_r.
      rewrite E1. simpl. symmetry. apply orb_true_iff in E2.
      destruct E2 as [E2|E2]; [|rewrite E2, orb_true_r; reflexivity].
      rewrite orb_assoc, E2. reflexivity.
    + rewrite IH.
      * cbn [map]. f_equal. rewrite !orb_assoc. reflexivity.
      * eapply NoDup_app_r; exact Hnd.
      * intros X. apply orb_true_iff in X. destruct X as [X|X]; [apply HfR'; exact X|].
        destruct (has R (concat ls)) eqn:Y; [exfalso; eapply HD; eauto|reflexivity].
      * intros X. apply orb_true_iff in X. destruct X as [X|X]; [apply HmM'; exact X|].
        destruct (has M (concat ls)) eqn:Y; [exfalso; eapply HD; eauto|reflexivity].
      * destruct (ff || has R l); [|reflexivity]. simpl in EE |- *.
        apply orb_false_iff in EE. tauto.
      * intros X. rewrite X in EE. simpl in EE. apply orb_false_iff in EE. tauto.
Qed.
End CW.

Lemma rw_deref s n wf wm e : snd e < List.length (f_heap s) ->
  deref s (rw (f_heap s) n wf wm e) = reweight n wf wm (deref s e).
Proof.
  intros V. unfold reweight.
  assert (E : entry_name (deref s e) = Some (name_at (f_heap s) (snd e))) by (apply deref_name; auto).
  rewrite E. unfold rw. destruct (_ && _); [reflexivity|]. destruct (_ && _); reflexivity.
Qed.

Lemma soft_has_spec s m : valid s -> f_hqp s <> [] ->
  has (f_heap s) m (concat (tl (f_hqp s))) = true <-> soft_has m (hqp s).
Proof.
  intros V Hne. unfold soft_has. rewrite has_In. unfold hqp.
  destruct (f_hqp s) as [|l0 ls] eqn:E; [contradiction|]. simpl.
  rewrite in_map_iff. split.
  - intros (e & En & He). exists (deref s e). split.
    + rewrite <- concat_map. apply in_map. exact He.
    + apply deref_name; [|exact En]. unfold valid in V. rewrite E in V. simpl in V.
      apply Forall_app in V. destruct V as [_ V]. rewrite Forall_forall in V. auto.
  - intros (e & He & En). rewrite <- concat_map in He. apply in_map_iff in He.
    destruct He as (e0 & <- & He). exists e0. split; [|exact He].
    apply deref_name; [|exact En]. unfold valid in V. rewrite E in V. simpl in V.
    apply Forall_app in V. destruct V as [_ V]. rewrite Forall_forall in V. auto.
Qed.

Lemma upd_contact_weights_obs s n wf wm s' b :
  invA s -> invB s -> (wm <? n0)%num = negb (n0 <=? wm)%num ->
  upd_contact_weights s n wf wm = (s', b) ->
  hqp s' = reweight_soft n wf wm (hqp s) /\ s' = w_hqp s (f_hqp s') /\
  (b = true <-> soft_has (n ++ "_force_reg_task")%string (hqp s) /\
                (soft_has (n ++ "_motion_task")%string (hqp s) \/ (wm <? n0)%num = true)).
Proof.
  intros HA HB Hnan H. unfold upd_contact_weights in H.
  assert (V := invA_valid s HA).
  assert (L := ia_lev _ HA).
  assert (HS := fun m => soft_has_spec s m V).
  destruct (f_hqp s) as [|l0 ls] eqn:E; [simpl in L; lia|].
  assert (Hnd := b_names _ HB). unfold hqp_names in Hnd. rewrite E in Hnd. simpl in Hnd.
  rewrite map_app in Hnd. apply NoDup_app_r in Hnd.
  rewrite cw_levels in H; auto; try discriminate.
  injection H as <- <-. split; [|split].
  - unfold hqp, reweight_soft. simpl. rewrite E. simpl. f_equal.
    rewrite !map_map. apply map_ext_in. intros l Hl. rewrite !map_map. apply map_ext_in. intros e He.
    change (deref (w_hqp s (l0 :: map (map (rw (f_heap s) n wf wm)) ls))) with (deref s).
    apply rw_deref. unfold valid in V. rewrite Forall_forall in V. apply V. rewrite E. simpl.
    apply in_or_app. right. apply in_concat. eauto.
  - reflexivity.
  - rewrite <- !HS by discriminate. simpl. rewrite andb_true_iff, orb_true_iff. tauto.
Qed.

(** A contact is present iff its force-regularisation entry is in a soft level. *)
Lemma reg_soft s n : invA s -> invB s ->
  (soft_has (n ++ "_force_reg_task")%string (hqp s) <-> In n (contact_names s)).
Proof.
  intros HA HB. assert (V := invA_valid s HA). assert (L := ia_lev _ HA).
  rewrite <- soft_has_spec; [|exact V|destruct (f_hqp s); [simpl in L; lia|discriminate]].
  rewrite has_In. split.
  - intros H. eapply reg_name_contact; eauto.
    unfold hqp_names. destruct (f_hqp s) as [|l0 ls]; [simpl in L; lia|]. simpl in *.
    rewrite map_app. apply in_or_app. right. exact H.
  - intros H. unfold contact_names in H. apply in_map_iff in H. destruct H as (c & Ec & Hc).
    destruct (b_con _ HB c Hc) as ([[[[m nf] mr] fr] rr] & HC).
    assert (Em := proj1 (con_name _ _ _ _ _ _ _ HC)). rewrite Ec in Em.
    destruct HC as (_ & _ & _ & Hr & _ & _ & Hl). rewrite Em.
    destruct Hl as (l & Hl & Hi). apply in_map_iff in Hi. destruct Hi as (e & Ee & He).
    apply in_map_iff. exists e. split.
    + rewrite Ee. eapply info_name; exact Hr.
    + destruct (f_hqp s) as [|l0 ls]; [discriminate|]. simpl in *. apply in_concat.
      exists l. split; [apply (nth_error_In ls 0); exact Hl|exact He].
Qed.

Lemma reweight_absent s n wf wm : invA s -> invB s -> ~ In n (contact_names s) ->
  reweight_soft n wf wm (hqp s) = hqp s.
Proof.
  intros HA HB Hn. unfold reweight_soft, hqp.
  assert (V := invA_valid s HA). unfold valid in V.
  destruct (f_hqp s) as [|l0 ls] eqn:E; [reflexivity|]. simpl. f_equal.
  rewrite map_map. apply map_ext_in. intros l Hl. rewrite map_map. apply map_ext_in. intros e He.
  assert (Hin : In e (concat (f_hqp s))) by (rewrite E; simpl; apply in_or_app; right; apply in_concat; eauto).
  assert (Hv : snd e < List.length (f_heap s)).
  { rewrite Forall_forall in V. apply V. rewrite <- E. exact Hin. }
  assert (Hnm : In (name_at (f_heap s) (snd e)) (hqp_names s)) by (apply in_map_iff; exists e; auto).
  unfold reweight.
  replace (entry_name (deref s e)) with (Some (name_at (f_heap s) (snd e))) by (symmetry; apply deref_name; auto).
  destruct (String.eqb_spec (name_at (f_heap s) (snd e)) (n ++ "_force_reg_task")) as [X|X].
  { exfalso. apply Hn. apply reg_name_contact; auto. rewrite <- X. exact Hnm. }
  destruct (String.eqb_spec (name_at (f_heap s) (snd e)) (n ++ "_motion_task")) as [Y|Y].
  { exfalso. apply Hn. apply motion_name_contact; auto. rewrite <- Y. exact Hnm. }
  reflexivity.
Qed.

(** ** Rejected arguments *)
Lemma add_motion_exc s id n kd r w lvl dur :
  args_ok w dur = false <-> add_motion s id n kd r w lvl dur = Exc s.
Proof.
  unfold add_motion. destruct (args_ok w dur); split; try discriminate; auto.
  destruct (add_task_cstr _ _ _ _ _ _) as [[? ?]|]; discriminate.
Qed.
Lemma add_force_exc s id n kd r w lvl dur :
  args_ok w dur = false <-> add_force s id n kd r w lvl dur = Exc s.
Proof.
  unfold add_force. destruct (args_ok w dur); split; try discriminate; auto.
  destruct (add_task_cstr _ _ _ _ _ _) as [[? ?]|]; discriminate.
Qed.
Lemma add_act_exc s id n kd r w lvl dur :
  args_ok w dur = false <-> add_act s id n kd r w lvl dur = Exc s.
Proof.
  unfold add_act. destruct (args_ok w dur); split; try discriminate; auto.
  destruct (add_task_cstr _ _ _ _ _ _) as [[? ?]|]; discriminate.
Qed.

End Ops.
