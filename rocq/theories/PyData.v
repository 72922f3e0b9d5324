(** The Python interface of the formulation,
    /repo/include/tsid/bindings/python/formulations/formulation.hpp (formulation.hpp below)
    and utils/container.hpp.  Calls that pass their arguments on unchanged are those of
    Formulation.v; here are the ones that do not. *)
From Coq Require Import String List Arith Bool ZArith Lia.
From Verif Require Import Scalar Outcome Linalg Constraint Formulation ListUtil FormSpec FormInv FormInvB FormSafe FormSafe2 FormMain FormDecode FormInvC.
Import ListNotations.
Open Scope string_scope.
Open Scope list_scope.
Open Scope nat_scope.

Section Py.
Context {K : num}.
Variable dbg : bool.
Implicit Types (s : fstate K) (o : fop K) (e : env K) (t w : K).
Local Notation step := (@Formulation.step K dbg).

(** HQPDatas, container.hpp:85-139: a copy of HQPData, i.e. of vectors of pairs of a weight
    and a shared pointer; the constraints themselves are not copied. *)
Definition pydata := list (list (K * nat)).

(** computeProblemData, formulation.hpp:252-258: [Hqp.set(self.computeProblemData(..))] copies
    the vectors (container.hpp:131-134). *)
Definition py_compute s t e : outcome (fstate K) pydata :=
  match compute dbg s t e with Ret s' _ => Ret s' (f_hqp s') | Exc s' => Exc s' | Undef => Undef end.

(** What a solver reads through the object in a later state (HQPDatas::get,
    container.hpp:130): the weights of the copy and the present contents of the constraints. *)
Definition py_view s (d : pydata) : list (list (K * option (constr K))) := map (map (deref s)) d.

(** addRigidContact with a priority level, formulation.hpp:211-216, 221-227, 233-239: the
    parameter is a [bool], so the number is converted: 0 to false, all others to true, and
    true is passed on as level 1.  That Boost.Python converts Python integers to bool in
    this way is general knowledge, its sources were not available here. *)
Definition as_bool (lvl : nat) : bool := negb (lvl =? 0).
Definition py_add_contact s (c : nat) (wreg wmot : K) (lvl : nat) : outcome (fstate K) bool :=
  add_contact s c wreg wmot (if as_bool lvl then 1 else 0).

(** checkContact, formulation.hpp:271-276. *)
Definition py_check s (name : string) (x : vec K) : outcome (fstate K) bool :=
  match get s (GForceOf name) x with
  | Ret s' f => Ret s' (0 <? vlen f)
  | Exc s' => Exc s'
  | Undef => Undef
  end.

(** ** What survives calls that leave the contacts alone *)
Definition keeps s s' : Prop :=
  f_nv s' = f_nv s /\ f_k s' = f_k s /\ exists l, shapes s' = shapes s ++ l.
Definition contacts_kept s o : Prop :=
  forall s', after (step s o) = Some s' -> contact_objs s' = contact_objs s.

Lemma keeps_refl s : keeps s s.
Proof. split; [|split]; auto. exists []. rewrite app_nil_r. reflexivity. Qed.
Lemma keeps_trans a b c : keeps a b -> keeps b c -> keeps a c.
Proof.
  intros (A1 & A2 & l & A3) (B1 & B2 & l' & B3). split; [congruence|]. split; [congruence|].
  exists (l ++ l'). rewrite B3, A3, app_assoc. reflexivity.
Qed.
Lemma keeps_same s s' : same s s' -> keeps s s'.
Proof. intros H. split; [apply H|]. split; [apply H|]. exists []. rewrite app_nil_r. apply H. Qed.
Lemma keeps_heap s s' : f_nv s' = f_nv s -> f_k s' = f_k s -> f_heap s' = f_heap s -> keeps s s'.
Proof. intros A B C. split; [exact A|]. split; [exact B|]. exists []. unfold shapes. rewrite C, app_nil_r. reflexivity. Qed.

Lemma keeps_add_task s n kd r w lvl s' a : add_task_cstr s n kd r w lvl = Some (s', a) -> keeps s s'.
Proof.
  unfold add_task_cstr. intros H. ob H. injection H as <- <-.
  split; [|split].
  - destruct kd; destruct (lvl =? 0); reflexivity.
  - destruct kd; destruct (lvl =? 0); reflexivity.
  - exists [shape (K:=K) (new_task_cstr n kd r (f_nv s + f_k s))]. unfold shapes.
    replace (f_heap _) with (f_heap s ++ [new_task_cstr n kd r (f_nv s + f_k s)]) by (destruct kd; destruct (lvl =? 0); reflexivity).
    rewrite map_app. reflexivity.
Qed.
Lemma keeps_erase s n : keeps s (fst (erase_hqp s n)).
Proof. unfold erase_hqp. destruct (erase_levels _ _ _); apply keeps_heap; reflexivity. Qed.

Lemma objs_reindex s k l : map cl_obj (reindex s k l) = map cl_obj l.
Proof. apply reindex_shape. reflexivity. Qed.

Lemma keeps_remove_now s n s' b : remove_contact_now dbg s n = Ret s' b ->
  keeps s s' \/ S (List.length (contact_objs s')) = List.length (contact_objs s).
Proof.
  intros H. apply remove_contact_now_spec in H. cbv zeta in H.
  destruct (erase3_frame s n) as (F1 & F2 & F3 & F4).
  assert (F0 : f_nv (erase3 s n) = f_nv s).
  { unfold erase3, erase_hqp. repeat (destruct (erase_levels _ _ _); simpl). all: reflexivity. }
  destruct H as [ (_ & _ & ->) | (c & rest & s4 & mr & fr & Ht & _ & _ & _ & ->) ].
  - left. apply keeps_heap; simpl; assumption.
  - right. apply take_contact_spec in Ht. destruct Ht as (l1 & l2 & Hl & -> & _).
    unfold contact_objs. cbn [f_contacts w_contacts]. rewrite objs_reindex, Hl, !map_length, !app_length. simpl. lia.
Qed.

Lemma keeps_transitions todo : forall s dn s', after (run_transitions dbg s dn todo) = Some s' ->
  keeps s s' \/ S (List.length (contact_objs s')) = List.length (contact_objs s).
Proof.
  induction todo as [|c todo IH]; cbn [run_transitions]; intros s dn s' Ha.
  - injection Ha as <-. left. apply keeps_refl.
  - destruct (assert_ _ _); [|discriminate]. destruct (_ <=? _)%num.
    + destruct (obj_set_fmax s (tr_obj c) _) as [s1 b1|s1|] eqn:E; [| |discriminate].
      * apply set_fmax_same in E. destruct (IH _ _ _ Ha) as [H|H].
        -- left. eapply keeps_trans; [apply keeps_same; exact E|exact H].
        -- right. rewrite H. unfold contact_objs. rewrite (sm_con _ _ E). reflexivity.
      * injection Ha as <-. unfold obj_set_fmax in E. destruct (cobj_at _ _); [|discriminate].
        destruct (_ || _); [discriminate|]. injection E as <-. left. apply keeps_refl.
    + destruct (cobj_at s (tr_obj c)) as [x|]; [|discriminate].
      destruct (remove_contact_now dbg s (co_name x)) as [s1 b1|s1|] eqn:E; [| |discriminate].
      * injection Ha as <-. destruct (keeps_remove_now _ _ _ _ E) as [H|H]; [left|right; exact H].
        eapply keeps_trans; [exact H|apply keeps_heap; reflexivity].
      * unfold remove_contact_now in E.
        match type of E with match ?t with _ => _ end = _ => destruct t as [[? ?]|]; discriminate end.
Qed.

Lemma keeps_step s o s' : contacts_kept s o -> after (step s o) = Some s' -> keeps s s'.
Proof.
  intros Hk Ha. assert (L := f_equal (@List.length nat) (Hk _ Ha)). clear Hk.
  destruct o; cbn [step Formulation.step] in Ha; try rewrite lift_after in Ha.
  - injection Ha as <-. apply keeps_heap; reflexivity.
  - destruct (obj_set_fmin s o f) as [s1 b1|s1|] eqn:E; [| |discriminate]; injection Ha as <-.
    + apply keeps_same. eapply set_fmin_same; exact E.
    + unfold obj_set_fmin in E. destruct (cobj_at _ _); [|discriminate].
      destruct (_ || _); [discriminate|]. injection E as <-. apply keeps_refl.
  - destruct (obj_set_fmax s o f) as [s1 b1|s1|] eqn:E; [| |discriminate]; injection Ha as <-.
    + apply keeps_same. eapply set_fmax_same; exact E.
    + unfold obj_set_fmax in E. destruct (cobj_at _ _); [|discriminate].
      destruct (_ || _); [discriminate|]. injection E as <-. apply keeps_refl.
  - unfold add_motion in Ha. destruct (args_ok w dur); [|injection Ha as <-; apply keeps_refl].
    destruct (add_task_cstr s name kd rows w lvl) as [[s1 a]|] eqn:E; [|discriminate].
    injection Ha as <-. exact (keeps_add_task _ _ _ _ _ _ _ _ E).
  - unfold add_force in Ha. destruct (args_ok w dur); [|injection Ha as <-; apply keeps_refl].
    destruct (add_task_cstr s name kd rows w lvl) as [[s1 a]|] eqn:E; [|discriminate].
    injection Ha as <-. exact (keeps_add_task _ _ _ _ _ _ _ _ E).
  - unfold add_act in Ha. destruct (args_ok w dur); [|injection Ha as <-; apply keeps_refl].
    destruct (add_task_cstr s name kd rows w lvl) as [[s1 a]|] eqn:E; [|discriminate].
    injection Ha as <-. exact (keeps_add_task _ _ _ _ _ _ _ _ E).
  - unfold upd_task_weight in Ha. destruct (f_hqp s) as [|l0 ls]; [injection Ha as <-; apply keeps_refl|].
    destruct (upd_weight_levels _ _ _ _) as [ls'|]; injection Ha as <-; apply keeps_heap; reflexivity.
  - destruct (add_contact s o wreg wmot lvl) as [s1 b1|s1|] eqn:E; [| |discriminate]; injection Ha as <-.
    + apply add_contact_spec in E. destruct E as (_ & x & s1' & q1 & q2 & q3 & _ & _ & E). cbv zeta in E.
      destruct E as (_ & _ & _ & ->). unfold contact_objs in L. simpl in L.
      rewrite map_app, app_length in L. simpl in L. lia.
    + exfalso; eapply add_contact_no_exc; eauto.
  - unfold upd_contact_weights in Ha. destruct (f_hqp s) as [|l0 ls]; [injection Ha as <-; apply keeps_refl|].
    destruct (upd_cw_levels _ _ _ _ _ _ _) as [ls' b]; injection Ha as <-. apply keeps_heap; reflexivity.
  - injection Ha as <-. apply keeps_heap; reflexivity.
  - unfold remove_task in Ha. assert (H1 := keeps_erase s name).
    destruct (erase_hqp s name) as [s1 f1]. cbn [fst] in H1.
    assert (G : forall x, f_nv x = f_nv s1 -> f_k x = f_k s1 -> f_heap x = f_heap s1 -> keeps s x)
      by (intros; eapply keeps_trans; [exact H1|apply keeps_heap; assumption]).
    destruct (assert_ dbg f1); [|discriminate].
    destruct (take_task name (f_motions s1)) as [[t r]|].
    + destruct (tl_prio t =? 0).
      * destruct (tl_rows s1 t) as [[[] m]|]; try discriminate; injection Ha as <-; apply G; reflexivity.
      * injection Ha as <-. apply G; reflexivity.
    + destruct (take_task name (f_forces s1)) as [[t r]|].
      * injection Ha as <-. apply G; reflexivity.
      * destruct (take_task name (f_acts s1)) as [[t r]|].
        -- destruct (tl_prio t =? 0).
           ++ destruct (tl_rows s1 t) as [[[] m]|]; try discriminate; injection Ha as <-; apply G; reflexivity.
           ++ injection Ha as <-. apply G; reflexivity.
        -- injection Ha as <-. exact H1.
  - unfold remove_contact in Ha. destruct (_ <? _)%num.
    + destruct (find_contact s name); [|injection Ha as <-; apply keeps_refl].
      destruct (cobj_at _ _); [|discriminate]. injection Ha as <-. apply keeps_heap; reflexivity.
    + destruct (remove_contact_now dbg s name) as [s1 b1|s1|] eqn:E; [| |discriminate]; injection Ha as <-.
      * destruct (keeps_remove_now _ _ _ _ E) as [H|H]; [exact H|lia].
      * unfold remove_contact_now in E.
        match type of E with match ?t with _ => _ end = _ => destruct t as [[? ?]|]; discriminate end.
  - unfold remove_meas in Ha. destruct (take_meas _ _); injection Ha as <-; apply keeps_heap; reflexivity.
  - unfold compute in Ha.
    assert (T := keeps_transitions (f_trans (w_t s t)) (w_t s t) []).
    assert (W : keeps s (w_t s t)) by (apply keeps_heap; reflexivity).
    change (contact_objs (w_t s t)) with (contact_objs s) in T.
    destruct (run_transitions dbg (w_t s t) [] (f_trans (w_t s t))) as [s1 u|s1|]; [| |discriminate].
    + specialize (T s1 eq_refl).
      destruct (comp_fill s1 e) as [s2|] eqn:E2; [|discriminate]. injection Ha as <-.
      apply comp_fill_same in E2. unfold contact_objs at 1 in L. rewrite (sm_con _ _ E2) in L.
      change (map cl_obj (f_contacts s1)) with (contact_objs s1) in L.
      destruct T as [T|T]; [|lia]. eapply keeps_trans; [exact W|]. eapply keeps_trans; [exact T|apply keeps_same; exact E2].
    + specialize (T s1 eq_refl). injection Ha as <-. destruct T as [T|T]; [|lia]. eapply keeps_trans; [exact W|exact T].
  - unfold get in Ha. destruct (decode s x) as [s1|] eqn:E; [|discriminate].
    assert (H1 := keeps_same _ _ (decode_same _ _ _ E)).
    destruct g; try (injection Ha as <-; exact H1).
    destruct (find_contact s1 name); [|injection Ha as <-; exact H1].
    destruct (vsegment _ _ _); [|discriminate]. injection Ha as <-; exact H1.
Qed.

Lemma keeps_reach s1 s2 : reach step contacts_kept s1 s2 -> keeps s1 s2.
Proof. induction 1 as [|s o s' _ IH P E]; [apply keeps_refl|]. eapply keeps_trans; [exact IH|exact (keeps_step _ _ _ P E)]. Qed.

(** ** The data object just returned *)
Lemma py_compute_step s t e s' d : py_compute s t e = Ret s' d -> step s (OCompute t e) = Ret s' OutUnit /\ d = f_hqp s'.
Proof.
  unfold py_compute. cbn [step Formulation.step]. destruct (compute dbg s t e) as [s1 []|s1|]; simpl; intros H; try discriminate.
  injection H as <- <-. auto.
Qed.
Theorem py_fresh s t e s' d : py_compute s t e = Ret s' d -> py_view s' d = hqp s'.
Proof. intros H. apply py_compute_step in H. destruct H as [_ ->]. reflexivity. Qed.

(** ** A data object kept while the contacts stay *)
Definition same_entry (n : nat) (a b : K * option (constr K)) : Prop :=
  fst b = fst a /\ exists c c', snd a = Some c /\ snd b = Some c' /\ shape c' = shape c /\ mcols (c_mat c') = n.

Lemma forall2_map {A B C} (f : A -> B) (g : A -> C) (R : B -> C -> Prop) l :
  (forall x, In x l -> R (f x) (g x)) -> Forall2 R (map f l) (map g l).
Proof. induction l as [|a l IH]; simpl; intros H; constructor; auto. Qed.

Theorem py_kept nv na (M0 : mat K) H0 s t e s1 d s2 :
  reach step any (init nv na M0 H0) s -> py_compute s t e = Ret s1 d -> reach step contacts_kept s1 s2 ->
  nVar s2 = nVar s1 /\ Forall2 (Forall2 (same_entry (nVar s2))) (hqp s1) (py_view s2 d).
Proof.
  intros R C R2. apply py_compute_step in C. destruct C as [C ->].
  assert (R1 : reach step any (init nv na M0 H0) s1) by (eapply reach_step; [exact R|exact I|rewrite C; reflexivity]).
  destruct (keeps_reach _ _ R2) as (N1 & N2 & l & N3).
  assert (EN : nVar s2 = nVar s1) by (unfold nVar; congruence). split; [exact EN|].
  destruct (all_columns dbg _ _ _ _ _ R1) as [_ AC].
  unfold hqp in *. unfold py_view. apply forall2_map. intros lv Hlv. apply forall2_map. intros x Hx.
  destruct (AC (map (deref s1) lv) (deref s1 x)) as (c & E1 & E2); [apply in_map; exact Hlv|apply in_map; exact Hx|].
  destruct x as [w a]. unfold deref in *. cbn [fst snd] in *. split; [reflexivity|]. exists c.
  assert (Z : nth_error (shapes s2) a = Some (shape c)).
  { rewrite N3. rewrite nth_error_app1.
    - unfold shapes. rewrite nth_error_map, E1. reflexivity.
    - unfold shapes. rewrite map_length. apply nth_error_Some. congruence. }
  apply nth_shape in Z. destruct Z as (c' & Z1 & Z2). exists c'. split; [exact E1|]. split; [exact Z1|]. split; [exact Z2|].
  rewrite EN, <- E2. unfold shape in Z2. congruence.
Qed.

(** ** ... and neither weights nor tasks change: the object shows the present problem *)
Definition only_values s o : Prop :=
  contacts_kept s o /\
  match o with
  | OAddMotion _ _ _ _ _ _ _ | OAddForce _ _ _ _ _ _ _ | OAddAct _ _ _ _ _ _ _ | OUpdTask _ _
  | OAddContact _ _ _ _ | OUpdContact _ _ _ | ORemTask _ => False
  | ORemContact _ d => (n0 <? d)%num = true
  | OCompute t _ => forall tr, In tr (f_trans s) -> (t <=? tr_t1 tr)%num = true
  | _ => True
  end.

Lemma transitions_hqp todo : forall s dn s', (forall tr, In tr todo -> (f_t s <=? tr_t1 tr)%num = true) ->
  after (run_transitions dbg s dn todo) = Some s' -> f_hqp s' = f_hqp s.
Proof.
  induction todo as [|c todo IH]; cbn [run_transitions]; intros s dn s' F Ha.
  - injection Ha as <-. reflexivity.
  - destruct (assert_ _ _); [|discriminate]. rewrite (F c (or_introl eq_refl)) in Ha.
    destruct (obj_set_fmax s (tr_obj c) _) as [s1 b1|s1|] eqn:E; [| |discriminate].
    + assert (T : f_t s1 = f_t s).
      { unfold obj_set_fmax in E. destruct (cobj_at _ _); [|discriminate].
        destruct (_ || _); [injection E as <- _; reflexivity|discriminate]. }
      apply set_fmax_same in E. rewrite <- (sm_hqp _ _ E). eapply IH; [|exact Ha].
      intros tr H. rewrite T. apply F. right. exact H.
    + injection Ha as <-. unfold obj_set_fmax in E. destruct (cobj_at _ _); [|discriminate].
      destruct (_ || _); [discriminate|]. injection E as <-. reflexivity.
Qed.
Lemma only_values_hqp s o s' : only_values s o -> after (step s o) = Some s' -> f_hqp s' = f_hqp s.
Proof.
  intros [_ Hv] Ha. destruct o; try contradiction; cbn [step Formulation.step] in Ha; try rewrite lift_after in Ha.
  - injection Ha as <-. reflexivity.
  - destruct (obj_set_fmin s o f) as [s1 b1|s1|] eqn:E; [| |discriminate]; injection Ha as <-.
    + apply (sm_hqp _ _ (set_fmin_same _ _ _ _ _ E)).
    + unfold obj_set_fmin in E. destruct (cobj_at _ _); [|discriminate].
      destruct (_ || _); [discriminate|]. injection E as <-. reflexivity.
  - destruct (obj_set_fmax s o f) as [s1 b1|s1|] eqn:E; [| |discriminate]; injection Ha as <-.
    + apply (sm_hqp _ _ (set_fmax_same _ _ _ _ _ E)).
    + unfold obj_set_fmax in E. destruct (cobj_at _ _); [|discriminate].
      destruct (_ || _); [discriminate|]. injection E as <-. reflexivity.
  - injection Ha as <-. reflexivity.
  - unfold remove_contact in Ha. rewrite Hv in Ha.
    destruct (find_contact s name); [|injection Ha as <-; reflexivity].
    destruct (cobj_at _ _); [|discriminate]. injection Ha as <-. reflexivity.
  - unfold remove_meas in Ha. destruct (take_meas _ _); injection Ha as <-; reflexivity.
  - unfold compute in Ha.
    assert (T := transitions_hqp (f_trans (w_t s t)) (w_t s t) []). cbn [f_t w_t f_trans f_hqp] in T.
    destruct (run_transitions dbg (w_t s t) [] (f_trans (w_t s t))) as [s1 u|s1|] eqn:E; [| |discriminate].
    + destruct (comp_fill s1 e) as [s2|] eqn:E2; [|discriminate]. injection Ha as <-.
      rewrite (sm_hqp _ _ (comp_fill_same _ _ _ E2)). apply T; [exact Hv|]. cbn [f_trans w_t] in E. rewrite E. reflexivity.
    + injection Ha as <-. apply T; [exact Hv|]. cbn [f_trans w_t] in E. rewrite E. reflexivity.
  - unfold get in Ha. destruct (decode s x) as [s1|] eqn:E; [|discriminate].
    assert (H1 := sm_hqp _ _ (decode_same _ _ _ E)).
    destruct g; try (injection Ha as <-; exact H1).
    destruct (find_contact s1 name); [|injection Ha as <-; exact H1].
    destruct (vsegment _ _ _); [|discriminate]. injection Ha as <-; exact H1.
Qed.
Theorem py_live s t e s1 d s2 : py_compute s t e = Ret s1 d -> reach step only_values s1 s2 -> py_view s2 d = hqp s2.
Proof.
  intros C R. apply py_compute_step in C. destruct C as [_ ->].
  unfold py_view, hqp. f_equal. symmetry. induction R as [|q o q' R IH P E]; [reflexivity|].
  rewrite <- IH. exact (only_values_hqp _ _ _ P E).
Qed.

(** ** Contacts *)
Theorem py_contact_defined nv na (M0 : mat K) H0 s c wr wm lvl : robot_ok nv M0 H0 ->
  reach step (good dbg) (init nv na M0 H0) s -> c < List.length (f_objs s) ->
  exists s', py_add_contact s c wr wm lvl = Ret s' true.
Proof.
  intros (E1 & E2 & E3) R Hc.
  destruct (nth_error (f_objs s) c) as [x|] eqn:Ex; [|apply nth_error_None in Ex; lia].
  destruct (safe_reach dbg nv na M0 H0 s E1 E2 E3 R) as (A & B & S).
  destruct (add_contact_total s c wr wm (if as_bool lvl then 1 else 0) x A (is_cells _ (proj1 S)) Ex) as (s' & E & _); [|eauto].
  assert (L := ia_lev _ A). destruct (as_bool lvl); lia.
Qed.

Lemma push_nth {X} (l q : list (list X)) i x : push_level l i x = Some q ->
  forall j, nth j q [] = if j =? i then nth j l [] ++ [x] else nth j l [].
Proof.
  unfold push_level. intros H j. ob H. injection H as <-.
  assert (Hi : i < List.length l) by (apply nth_error_Some; congruence).
  destruct (Nat.eqb_spec j i) as [->|Hj].
  - apply nth_error_nth with (d := []) in E. rewrite E. apply nth_error_nth. apply nth_error_lupd_eq. exact Hi.
  - destruct (nth_error l j) as [y|] eqn:Ey.
    + rewrite (nth_error_nth l j [] Ey). apply nth_error_nth. rewrite nth_error_lupd_neq by congruence. exact Ey.
    + apply nth_error_None in Ey. rewrite !nth_overflow; [reflexivity|exact Ey|rewrite lupd_length; exact Ey].
Qed.

(** Weights and names of the entries of a level. *)
Definition listed s i : list (K * option string) := map (fun en => (fst en, entry_name en)) (nth i (hqp s) []).
Lemma listed_eq s i : listed s i = map (fun en => (fst en, option_map c_name (nth_error (f_heap s) (snd en)))) (nth i (f_hqp s) []).
Proof.
  unfold listed, hqp. change (@nil (K * option (constr K))) with (map (deref s) []).
  rewrite map_nth, map_map. apply map_ext. intros [w a]. reflexivity.
Qed.
Definition when (b : bool) {A} (x : A) : list A := if b then [x] else [].

(** Where the three constraints of the contact are put, for a level that exists. *)
Lemma contact_listed s c wr wm lvl s' b x : invA s -> add_contact s c wr wm lvl = Ret s' b -> nth_error (f_objs s) c = Some x ->
  forall i, listed s' i = listed s i ++ when (i =? lvl) (wm, Some (co_name x ++ "_motion_task")%string)
    ++ when (i =? 0) (n1, Some (co_name x ++ "_force_constraint")%string) ++ when (i =? 1) (wr, Some (co_name x ++ "_force_reg_task")%string).
Proof.
  intros HA Ha Hx i. apply add_contact_spec in Ha.
  destruct Ha as (_ & x' & s1 & q1 & q2 & q3 & Hx' & Hr & P1 & P2 & P3 & ->).
  rewrite Hx in Hx'. injection Hx' as <-.
  assert (HP : preA (w_k s (f_k s + co_nforce x))) by (destruct (invA_preA _ HA); constructor; auto).
  destruct (resize_fields _ _ HP Hr) as (F1 & F2 & F3 & F4 & F5 & F6 & _).
  simpl in F1, F6.
  rewrite !listed_eq. cbn [f_hqp f_heap w_in w_eq w_contacts w_hqp w_heap].
  set (l := List.length (f_heap s1)) in *.
  set (cm := new_eq (co_name x ++ "_motion_task") (co_mrows x) (nVar s1)).
  set (cf := new_ineq (co_name x ++ "_force_constraint") (co_frows x) (nVar s1)).
  set (cr := new_eq (co_name x ++ "_force_reg_task") (co_rrows x) (nVar s1)).
  set (h := f_heap s1 ++ [cm] ++ [cf] ++ [cr]).
  assert (Nm : nth_error h l = Some cm) by (unfold h, l; rewrite nth_error_app2, Nat.sub_diag; auto).
  assert (Nf : nth_error h (S l) = Some cf).
  { unfold h. rewrite nth_error_app2 by (fold l; lia). fold l. replace (S l - l) with 1 by lia. reflexivity. }
  assert (Nr : nth_error h (S (S l)) = Some cr).
  { unfold h. rewrite nth_error_app2 by (fold l; lia). fold l. replace (S (S l) - l) with 2 by lia. reflexivity. }
  assert (OLD : map (fun en : K * nat => (fst en, option_map c_name (nth_error h (snd en)))) (nth i (f_hqp s) [])
              = map (fun en => (fst en, option_map c_name (nth_error (f_heap s) (snd en)))) (nth i (f_hqp s) [])).
  { apply map_ext_in. intros [w a] Hin. cbn [fst snd]. f_equal.
    assert (Hc : In (w, a) (concat (f_hqp s))).
    { destruct (Nat.lt_ge_cases i (List.length (f_hqp s))) as [Hi|Hi]; [|rewrite nth_overflow in Hin by exact Hi; contradiction].
      apply in_concat. exists (nth i (f_hqp s) []). split; [apply nth_In; exact Hi|exact Hin]. }
    assert (A := proj1 (Forall_forall _ _) (pa_addr _ HP) _ Hc). cbn [snd f_heap w_k] in A.
    assert (N := resize_name _ _ HP Hr a). cbn [f_heap w_k] in N. unfold name_at in N. fold l in F6.
    unfold h. rewrite nth_error_app1 by (fold l; lia).
    destruct (nth_error (f_heap s1) a) as [k1|] eqn:E1; [|apply nth_error_None in E1; fold l in E1; lia].
    destruct (nth_error (f_heap s) a) as [k|] eqn:E; [|apply nth_error_None in E; lia]. simpl. congruence. }
  rewrite (push_nth _ _ _ _ P3 i), (push_nth _ _ _ _ P2 i), (push_nth _ _ _ _ P1 i), F1, <- OLD.
  assert (A : forall X (b1 b2 b3 : bool) (u v w : X) (t : list X),
    (if b3 then (if b2 then (if b1 then t ++ [u] else t) ++ [v] else if b1 then t ++ [u] else t) ++ [w]
     else if b2 then (if b1 then t ++ [u] else t) ++ [v] else if b1 then t ++ [u] else t) = t ++ when b1 u ++ when b2 v ++ when b3 w).
  { intros X [] [] []; simpl; intros; rewrite <- ?app_assoc, ?app_nil_r; reflexivity. }
  rewrite A, !map_app. f_equal. unfold when.
  destruct (i =? lvl), (i =? 0), (i =? 1); cbn [map app fst snd]; rewrite ?Nm, ?Nf, ?Nr; reflexivity.
Qed.

Theorem py_contact_levels nv na (M0 : mat K) H0 s c wr wm lvl s' b x : reach step any (init nv na M0 H0) s ->
  py_add_contact s c wr wm lvl = Ret s' b -> nth_error (f_objs s) c = Some x ->
  forall i, listed s' i = listed s i ++ when (i =? Nat.min lvl 1) (wm, Some (co_name x ++ "_motion_task")%string)
    ++ when (i =? 0) (n1, Some (co_name x ++ "_force_constraint")%string) ++ when (i =? 1) (wr, Some (co_name x ++ "_force_reg_task")%string).
Proof.
  intros R Ha Hx i. unfold py_add_contact in Ha. assert (A := invA_reach dbg _ _ _ _ _ _ R).
  rewrite (contact_listed _ _ _ _ _ _ _ _ A Ha Hx i).
  destruct lvl as [|[|n]]; reflexivity.
Qed.

(** ** checkContact *)
Theorem py_check_meaning nv na (M0 : mat K) H0 s n x s' b : reach step any (init nv na M0 H0) s ->
  py_check s n x = Ret s' b -> (forall y, In y (f_objs s) -> 0 < co_nforce y) -> (b = true <-> In n (contact_names s)).
Proof.
  intros R C P. unfold py_check, get in C. destruct (decode s x) as [s1|] eqn:E; [|discriminate].
  assert (A := invA_reach dbg _ _ _ _ _ _ R).
  assert (Sm := decode_same _ _ _ E). assert (N := contact_names_same _ _ Sm).
  assert (Ob : map oshape (f_objs s1) = map oshape (f_objs s)) by apply Sm.
  unfold find_contact in C. destruct (take_contact s1 n (f_contacts s1)) as [[cl r]|] eqn:T.
  - apply take_contact_spec in T. destruct T as (l1 & l2 & El & _ & En & _).
    destruct (vsegment (f_f s1) (cl_index cl) (cl_nforce s1 cl)) as [v|] eqn:V; [|discriminate]. injection C as <- <-.
    assert (Hin : In cl (f_contacts s1)) by (rewrite El; apply in_or_app; right; left; reflexivity).
    assert (L : vlen v = cl_nforce s1 cl).
    { unfold vsegment in V. destruct (_ <=? _); [|discriminate]. injection V as <-. reflexivity. }
    assert (Pos : 0 < cl_nforce s1 cl).
    { assert (Hc : cl_obj cl < List.length (f_objs s1)) by (apply (proj1 (Forall_forall _ _) (ia_objs _ (invA_same _ _ Sm A))); exact Hin).
      unfold cl_nforce, cobj_at. destruct (nth_error (f_objs s1) (cl_obj cl)) as [y|] eqn:Y; [|apply nth_error_None in Y; lia].
      assert (Y' := map_nth_error oshape _ _ Y). rewrite Ob, nth_error_map in Y'.
      destruct (nth_error (f_objs s) (cl_obj cl)) as [y0|] eqn:Y0; [|discriminate]. simpl in Y'. injection Y' as _ Z _ _ _.
      rewrite <- Z. apply P. eapply nth_error_In; exact Y0. }
    rewrite <- N. split; intros _; [unfold contact_names; rewrite <- En; apply in_map; exact Hin|apply Nat.ltb_lt; lia].
  - injection C as <- <-. simpl. split; [discriminate|]. intros H. exfalso. rewrite <- N in H.
    unfold contact_names in H. apply in_map_iff in H. destruct H as (cl & En & Hin).
    clear - T En Hin. induction (f_contacts s1) as [|a l IH]; [contradiction|]. simpl in T.
    destruct (String.eqb_spec (cl_name s1 a) n) as [Q|Q]; [discriminate|].
    destruct (take_contact s1 n l) as [[? ?]|]; [discriminate|]. destruct Hin as [->|Hin]; [contradiction|auto].
Qed.
End Py.
