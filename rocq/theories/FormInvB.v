(** Ownership invariant of the formulation for histories that follow the naming
    rules: the HQP entries are exactly the constraints of the base dynamics and of
    the tasks and contacts present, with their levels; hard row counters. *)
From Coq Require Import String List Arith Bool ZArith Lia Permutation.
From Verif Require Import Scalar Outcome Linalg Constraint Formulation ListUtil FormSpec FormInv.
Import ListNotations.
Open Scope string_scope.
Open Scope list_scope.
Open Scope nat_scope.

(** ** Generic list facts *)
Lemma concat_map_filter {A} (p : A -> bool) ls : concat (map (filter p) ls) = filter p (concat ls).
Proof. induction ls as [|l ls IH]; simpl; [reflexivity|]. rewrite filter_app, IH; reflexivity. Qed.

Lemma filter_all {A} (p : A -> bool) l : (forall x, In x l -> p x = true) -> filter p l = l.
Proof.
  induction l as [|a l IH]; simpl; intros H; [reflexivity|].
  rewrite (H a) by auto. f_equal; auto.
Qed.
Lemma filter_filter {A} (p q : A -> bool) l : filter p (filter q l) = filter (fun x => q x && p x) l.
Proof.
  induction l as [|a l IH]; simpl; [reflexivity|].
  destruct (q a); simpl; [destruct (p a)|]; rewrite IH; reflexivity.
Qed.
Lemma filter_map {A B} (f : A -> B) (p : B -> bool) l :
  filter p (map f l) = map f (filter (fun x => p (f x)) l).
Proof.
  induction l as [|a l IH]; simpl; [reflexivity|].
  destruct (p (f a)); simpl; rewrite IH; reflexivity.
Qed.
Lemma NoDup_filter_map {A B} (f : A -> B) (p : A -> bool) l :
  NoDup (map f l) -> NoDup (map f (filter p l)).
Proof.
  induction l as [|a l IH]; simpl; intros N; [constructor|].
  inversion N as [|? ? Hn N']; subst. destruct (p a); simpl; auto.
  constructor; auto. intros H. apply Hn. apply in_map_iff in H. destruct H as (y & <- & Hy).
  apply filter_In in Hy. apply in_map; tauto.
Qed.
Lemma Permutation_filter {A} (p : A -> bool) l l' :
  Permutation l l' -> Permutation (filter p l) (filter p l').
Proof.
  induction 1; simpl.
  - constructor.
  - destruct (p x); auto.
  - destruct (p x), (p y); auto using perm_swap, Permutation_refl.
  - etransitivity; eauto.
Qed.
Lemma NoDup_app_inv {A} (l1 l2 : list A) x : NoDup (l1 ++ l2) -> In x l1 -> In x l2 -> False.
Proof.
  induction l1 as [|a l1 IH]; simpl; intros N H1 H2; [contradiction|].
  inversion N as [|? ? Hn N']; subst. destruct H1 as [->|H1]; [|eauto].
  apply Hn, in_or_app; auto.
Qed.
Lemma NoDup_app_l {A} (l1 l2 : list A) : NoDup (l1 ++ l2) -> NoDup l1.
Proof.
  induction l1 as [|a l1 IH]; simpl; intros N; [constructor|].
  inversion N as [|? ? Hn N']; subst. constructor; auto.
  intros H; apply Hn, in_or_app; auto.
Qed.
Lemma NoDup_app_r {A} (l1 l2 : list A) : NoDup (l1 ++ l2) -> NoDup l2.
Proof.
  induction l1 as [|a l1 IH]; simpl; intros N; [exact N|].
  inversion N; subst; auto.
Qed.
Lemma NoDup_concat_level {A} (ls : list (list A)) i j l l' x :
  NoDup (concat ls) -> nth_error ls i = Some l -> nth_error ls j = Some l' ->
  In x l -> In x l' -> i = j.
Proof.
  revert i j; induction ls as [|a ls IH]; intros [|i] [|j] N Hi Hj H1 H2; simpl in *;
    try discriminate; auto.
  - injection Hi as ->. exfalso. eapply NoDup_app_inv; [exact N|exact H1|].
    apply in_concat. exists l'. split; auto. eapply nth_error_In; eauto.
  - injection Hj as ->. exfalso. eapply NoDup_app_inv; [exact N|exact H2|].
    apply in_concat. exists l. split; auto. eapply nth_error_In; eauto.
  - f_equal. eapply IH; eauto. eapply NoDup_app_r; eauto.
Qed.
Lemma in_concat_level {A} (ls : list (list A)) x :
  In x (concat ls) -> exists i l, nth_error ls i = Some l /\ In x l.
Proof.
  intros H. apply in_concat in H. destruct H as (l & Hl & Hx).
  apply In_nth_error in Hl. destruct Hl as [i Hi]. eauto.
Qed.

(** Sum over a list with one distinguished element removed. *)
Lemma sum_drop {A} (f : A -> string) (g : A -> nat) n l e :
  NoDup (map f l) -> In e l -> f e = n ->
  sum_nat (map g (filter (fun x => negb (String.eqb (f x) n)) l)) + g e = sum_nat (map g l).
Proof.
  induction l as [|a l IH]; simpl; intros N H E; [contradiction|].
  inversion N as [|? ? Hn N']; subst. destruct H as [->|H].
  - rewrite String.eqb_refl. simpl.
    rewrite filter_all; [lia|]. intros x Hx. apply negb_true_iff, String.eqb_neq.
    intros Ex. apply Hn. rewrite <- Ex. apply in_map; exact Hx.
  - assert (f a <> f e).
    { intros Ex. apply Hn. rewrite Ex. apply in_map; exact H. }
    apply String.eqb_neq in H0. rewrite H0. simpl. rewrite <- (IH N' H eq_refl). lia.
Qed.

Lemma sum_nat_perm l l' : Permutation l l' -> sum_nat l = sum_nat l'.
Proof. induction 1; simpl; lia. Qed.

Section InvB.
Context {K : num}.
Variable dbg : bool.
Local Notation fstate := (fstate K).
Local Notation step := (step dbg).
Implicit Types (s : fstate) (h : list (constr K)) (w : K).

Definition nm s (e : K * nat) : string := name_at (f_heap s) (snd e).
Definition info s (a : nat) : option (string * ckind * nat) := option_map fst (nth_error (shapes s) a).
Definition in_level s (i a : nat) : Prop :=
  exists l, nth_error (f_hqp s) i = Some l /\ In a (map snd l).
Definition tasks s : list tlevel := f_motions s ++ f_forces s ++ f_acts s.
Definition con_addrs (c : clevel) : list nat := [cl_motion c; cl_force c; cl_reg c].
Definition owners s : list nat :=
  f_base s :: map tl_cstr (tasks s) ++ flat_map con_addrs (f_contacts s).

Lemma info_name s a n kd r : info s a = Some (n, kd, r) -> name_at (f_heap s) a = n.
Proof.
  unfold info, name_at, shapes. rewrite nth_error_map.
  destruct (nth_error (f_heap s) a) as [c|]; simpl; [|discriminate].
  unfold shape; simpl. congruence.
Qed.

(** Contact [c], whose object has shape [x], owns three constraints. *)
Definition con_ok s (c : clevel) (x : string * nat * nat * nat * nat) : Prop :=
  let '(n, nf, mr, fr, rr) := x in
  nth_error (map oshape (f_objs s)) (cl_obj c) = Some x /\
  info s (cl_motion c) = Some ((n ++ "_motion_task")%string, CEq, mr) /\
  info s (cl_force c) = Some ((n ++ "_force_constraint")%string, CIneq, fr) /\
  info s (cl_reg c) = Some ((n ++ "_force_reg_task")%string, CEq, rr) /\
  (exists i, in_level s i (cl_motion c)) /\ in_level s 0 (cl_force c) /\ in_level s 1 (cl_reg c).

Definition task_ok s (t : tlevel) : Prop :=
  (exists kd r, info s (tl_cstr t) = Some (tl_name t, kd, r)) /\
  ~ reserved (tl_name t) /\ in_level s (tl_prio t) (tl_cstr t).

Record invB s : Prop := mkInvB {
  b_perm : Permutation (map snd (concat (f_hqp s))) (owners s);
  b_names : NoDup (hqp_names s);
  b_base : in_level s 0 (f_base s);
  b_task : forall t, In t (tasks s) -> task_ok s t;
  b_con : forall c, In c (f_contacts s) -> exists x, con_ok s c x }.

(** ** Names *)
Lemma sfx_mf x y : (x ++ "_motion_task" <> y ++ "_force_constraint")%string.
Proof. apply (suffix_neq _ _ _ _ 1); [discriminate|simpl; lia|simpl; lia]. Qed.
Lemma sfx_mr x y : (x ++ "_motion_task" <> y ++ "_force_reg_task")%string.
Proof. apply (suffix_neq _ _ _ _ 6); [discriminate|simpl; lia|simpl; lia]. Qed.
Lemma sfx_fr x y : (x ++ "_force_constraint" <> y ++ "_force_reg_task")%string.
Proof. apply (suffix_neq _ _ _ _ 1); [discriminate|simpl; lia|simpl; lia]. Qed.
Lemma sfx_mb x : (x ++ "_motion_task" <> "base-dynamics")%string.
Proof. change "base-dynamics" with ("" ++ "base-dynamics")%string.
  apply (suffix_neq _ _ _ _ 1); [discriminate|simpl; lia|simpl; lia]. Qed.
Lemma sfx_fb x : (x ++ "_force_constraint" <> "base-dynamics")%string.
Proof. change "base-dynamics" with ("" ++ "base-dynamics")%string.
  apply (suffix_neq _ _ _ _ 1); [discriminate|simpl; lia|simpl; lia]. Qed.
Lemma sfx_rb x : (x ++ "_force_reg_task" <> "base-dynamics")%string.
Proof. change "base-dynamics" with ("" ++ "base-dynamics")%string.
  apply (suffix_neq _ _ _ _ 1); [discriminate|simpl; lia|simpl; lia]. Qed.

Lemma res_base : reserved "base-dynamics". Proof. left; reflexivity. Qed.
Lemma res_m x : reserved (x ++ "_motion_task"). Proof. right; exists x; auto. Qed.
Lemma res_f x : reserved (x ++ "_force_constraint"). Proof. right; exists x; auto. Qed.
Lemma res_r x : reserved (x ++ "_force_reg_task"). Proof. right; exists x; auto. Qed.

Lemma con_name s c n nf mr fr rr : con_ok s c (n, nf, mr, fr, rr) -> cl_name s c = n /\ cl_nforce s c = nf.
Proof.
  intros (H & _). rewrite nth_error_map in H. unfold cl_name, cl_nforce, cobj_at.
  destruct (nth_error (f_objs s) (cl_obj c)) as [x|]; simpl in H; [|discriminate].
  unfold oshape in H. injection H as <- <- _ _ _. auto.
Qed.

Lemma hqp_names_addr s : hqp_names s = map (name_at (f_heap s)) (map snd (concat (f_hqp s))).
Proof. unfold hqp_names. rewrite map_map. reflexivity. Qed.

(** Every name in the HQP data belongs to an owner. *)
Lemma owner_name s a : invA s -> invB s -> In a (owners s) ->
  (a = f_base s /\ name_at (f_heap s) a = "base-dynamics") \/
  (exists t, In t (tasks s) /\ a = tl_cstr t /\ name_at (f_heap s) a = tl_name t /\ ~ reserved (tl_name t)) \/
  (exists c n nf mr fr rr, In c (f_contacts s) /\ con_ok s c (n, nf, mr, fr, rr) /\ In a (con_addrs c) /\
     (a = cl_motion c /\ name_at (f_heap s) a = (n ++ "_motion_task")%string \/
      a = cl_force c /\ name_at (f_heap s) a = (n ++ "_force_constraint")%string \/
      a = cl_reg c /\ name_at (f_heap s) a = (n ++ "_force_reg_task")%string)).
Proof.
  intros HA HB Ha. unfold owners in Ha. destruct Ha as [<-|Ha].
  - left; split; [reflexivity|]. destruct (ia_base _ HA) as (c & E & _).
    apply (info_name s (f_base s) _ CEq (f_nu s)). unfold info. rewrite E. reflexivity.
  - right. apply in_app_or in Ha. destruct Ha as [Ha|Ha].
    + left. apply in_map_iff in Ha. destruct Ha as (t & <- & Ht). exists t.
      destruct (b_task _ HB t Ht) as ((kd & r & E) & Hr & _).
      repeat split; auto. eapply info_name; exact E.
    + right. apply in_flat_map in Ha. destruct Ha as (c & Hc & Ha).
      destruct (b_con _ HB c Hc) as ([[[[n nf] mr] fr] rr] & Hok).
      exists c, n, nf, mr, fr, rr. split; [exact Hc|]. split; [exact Hok|]. split; [exact Ha|].
      destruct Hok as (_ & Em & Ef & Er & _).
      destruct Ha as [<-|[<-|[<-|[]]]]; [left|right; left|right; right]; split; auto;
        eapply info_name; eauto.
Qed.

Lemma owners_nodup_names s : invB s -> NoDup (map (name_at (f_heap s)) (owners s)).
Proof.
  intros HB. eapply Permutation_NoDup; [|apply (b_names _ HB)].
  rewrite hqp_names_addr. apply Permutation_map, (b_perm _ HB).
Qed.
Lemma owners_nodup s : invB s -> NoDup (owners s).
Proof. intros HB. eapply NoDup_map_inv, owners_nodup_names; exact HB. Qed.

Lemma in_level_in s i a : in_level s i a -> In a (map snd (concat (f_hqp s))).
Proof.
  intros (l & Hl & Ha). rewrite concat_map, in_concat. exists (map snd l). split; auto.
  apply in_map. eapply nth_error_In; eauto.
Qed.

(** Contact names are pairwise distinct. *)
Lemma contact_names_nodup s : invA s -> invB s -> NoDup (contact_names s).
Proof.
  intros HA HB. assert (N := owners_nodup_names s HB). unfold owners in N.
  simpl in N. inversion N as [|? ? _ N']; subst. rewrite map_app in N'.
  apply NoDup_app_r in N'. unfold contact_names.
  assert (HC := b_con _ HB).
  revert N' HC. generalize (f_contacts s). induction l as [|c l IH]; simpl; intros N' HC; [constructor|].
  inversion N' as [|? ? Hn N1]; subst. inversion N1 as [|? ? _ N2]; subst. inversion N2 as [|? ? _ N3]; subst.
  constructor; [|apply IH; auto].
  intros Hin. apply Hn. right; right. apply in_map_iff in Hin. destruct Hin as (c' & E & Hc').
  destruct (HC c (or_introl eq_refl)) as ([[[[n nf] mr] fr] rr] & Hok).
  destruct (HC c' (or_intror Hc')) as ([[[[n' nf'] mr'] fr'] rr'] & Hok').
  destruct (con_name _ _ _ _ _ _ _ Hok) as [En _].
  destruct (con_name _ _ _ _ _ _ _ Hok') as [En' _].
  destruct Hok as (_ & Em & _). destruct Hok' as (_ & Em' & _).
  apply info_name in Em. apply info_name in Em'. rewrite Em.
  assert (E2 : n' = n) by congruence. rewrite E2 in Em'. rewrite <- Em'.
  apply in_map. apply in_flat_map. exists c'. split; auto. left; reflexivity.
Qed.

(** A contact's constraint name is in use only if the contact is present. *)
Lemma motion_name_contact s n : invA s -> invB s -> In (n ++ "_motion_task")%string (hqp_names s) ->
  In n (contact_names s).
Proof.
  intros HA HB H. rewrite hqp_names_addr in H. apply in_map_iff in H. destruct H as (a & E & Ha).
  rewrite (b_perm _ HB) in Ha.
  destruct (owner_name s a HA HB Ha) as [ (_ & E')|[ (t & _ & _ & E' & Hr)|(c & n' & ? & ? & ? & ? & Hc & Hok & _ & E')] ].
  - exfalso. apply (sfx_mb n); congruence.
  - exfalso. apply Hr. rewrite <- E', E. apply res_m.
  - destruct E' as [ (_ & E')|[ (_ & E')|(_ & E')] ].
    + apply con_name in Hok. destruct Hok as [Hn _]. rewrite E in E'. apply append_inj_r in E'.
      rewrite E', <- Hn. unfold contact_names. apply in_map; exact Hc.
    + exfalso. apply (sfx_mf n n'); congruence.
    + exfalso. apply (sfx_mr n n'); congruence.
Qed.
Lemma force_name_contact s n : invA s -> invB s -> In (n ++ "_force_constraint")%string (hqp_names s) ->
  In n (contact_names s).
Proof.
  intros HA HB H. rewrite hqp_names_addr in H. apply in_map_iff in H. destruct H as (a & E & Ha).
  rewrite (b_perm _ HB) in Ha.
  destruct (owner_name s a HA HB Ha) as [ (_ & E')|[ (t & _ & _ & E' & Hr)|(c & n' & ? & ? & ? & ? & Hc & Hok & _ & E')] ].
  - exfalso. apply (sfx_fb n); congruence.
  - exfalso. apply Hr. rewrite <- E', E. apply res_f.
  - destruct E' as [ (_ & E')|[ (_ & E')|(_ & E')] ].
    + exfalso. apply (sfx_mf n' n); congruence.
    + apply con_name in Hok. destruct Hok as [Hn _]. rewrite E in E'. apply append_inj_r in E'.
      rewrite E', <- Hn. unfold contact_names. apply in_map; exact Hc.
    + exfalso. apply (sfx_fr n n'); congruence.
Qed.
Lemma reg_name_contact s n : invA s -> invB s -> In (n ++ "_force_reg_task")%string (hqp_names s) ->
  In n (contact_names s).
Proof.
  intros HA HB H. rewrite hqp_names_addr in H. apply in_map_iff in H. destruct H as (a & E & Ha).
  rewrite (b_perm _ HB) in Ha.
  destruct (owner_name s a HA HB Ha) as [ (_ & E')|[ (t & _ & _ & E' & Hr)|(c & n' & ? & ? & ? & ? & Hc & Hok & _ & E')] ].
  - exfalso. apply (sfx_rb n); congruence.
  - exfalso. apply Hr. rewrite <- E', E. apply res_r.
  - destruct E' as [ (_ & E')|[ (_ & E')|(_ & E')] ].
    + exfalso. apply (sfx_mr n' n); congruence.
    + exfalso. apply (sfx_fr n' n); congruence.
    + apply con_name in Hok. destruct Hok as [Hn _]. rewrite E in E'. apply append_inj_r in E'.
      rewrite E', <- Hn. unfold contact_names. apply in_map; exact Hc.
Qed.

(** ** Erasing a name is filtering it out *)
Definition drop (n : string) h (ls : list (list (K * nat))) :=
  map (filter (fun e => negb (String.eqb (name_at h (snd e)) n))) ls.

Lemma erase_level_drop h n l l' :
  NoDup (map (fun e : K * nat => name_at h (snd e)) l) ->
  erase_level h n l = Some l' ->
  l' = filter (fun e => negb (String.eqb (name_at h (snd e)) n)) l.
Proof.
  revert l'; induction l as [|a l IH]; simpl; intros l' N H; [discriminate|].
  inversion N as [|? ? Hn N']; subst.
  destruct (String.eqb (name_at h (snd a)) n) eqn:E.
  - injection H as <-. simpl. symmetry. apply filter_all. intros x Hx.
    apply negb_true_iff, String.eqb_neq. intros Ex. apply Hn. apply String.eqb_eq in E.
    rewrite E, <- Ex. apply in_map_iff. eauto.
  - destruct (erase_level h n l) as [r|]; [|discriminate]. injection H as <-.
    simpl. f_equal. apply IH; auto.
Qed.
Lemma filter_name_absent h n (l : list (K * nat)) :
  Forall (fun e => name_at h (snd e) <> n) l ->
  filter (fun e => negb (String.eqb (name_at h (snd e)) n)) l = l.
Proof.
  intros H. apply filter_all. intros x Hx. rewrite Forall_forall in H.
  apply negb_true_iff, String.eqb_neq, H, Hx.
Qed.
Lemma erase_levels_drop h n ls :
  NoDup (map (fun e : K * nat => name_at h (snd e)) (concat ls)) ->
  match erase_levels h n ls with Some ls' => ls' = drop n h ls | None => drop n h ls = ls end.
Proof.
  induction ls as [|l ls IH]; simpl; intros N; [reflexivity|].
  rewrite map_app in N.
  destruct (erase_level h n l) as [l'|] eqn:E.
  - rewrite (erase_level_drop h n l l' (NoDup_app_l _ _ N) E). f_equal.
    unfold drop. symmetry. rewrite <- (map_id ls) at 2. apply map_ext_in. intros x Hx.
    apply filter_name_absent. apply Forall_forall. intros e He En.
    apply erase_level_spec in E. destruct E as (l1 & e0 & l2 & -> & _ & En0 & _).
    eapply NoDup_app_inv; [exact N| |].
    + apply in_map with (x := e0). apply in_or_app; right; left; reflexivity.
    + rewrite En0, <- En. apply (in_map (fun e => name_at h (snd e))). apply in_concat; eauto.
  - specialize (IH (NoDup_app_r _ _ N)).
    assert (F := filter_name_absent h n l (erase_level_none _ _ _ E)).
    destruct (erase_levels h n ls) as [r|].
    + subst r. unfold drop; simpl. rewrite F. reflexivity.
    + unfold drop in *; simpl. rewrite F, IH. reflexivity.
Qed.

Lemma w_hqp_id s : w_hqp s (f_hqp s) = s.
Proof. destruct s; reflexivity. Qed.

Lemma erase_hqp_drop s n : NoDup (hqp_names s) ->
  fst (erase_hqp s n) = w_hqp s (drop n (f_heap s) (f_hqp s)).
Proof.
  intros N. unfold erase_hqp. assert (E := erase_levels_drop (f_heap s) n (f_hqp s) N).
  destruct (erase_levels _ _ _); simpl.
  - rewrite E; reflexivity.
  - rewrite E. symmetry; apply w_hqp_id.
Qed.
Lemma erase_hqp_found s n : snd (erase_hqp s n) = true <-> In n (hqp_names s).
Proof.
  unfold erase_hqp. destruct (erase_levels (f_heap s) n (f_hqp s)) as [ls|] eqn:E; simpl.
  - split; auto. intros _. apply erase_levels_spec in E.
    destruct E as (i & l1 & e & l2 & Hi & _ & En). unfold hqp_names. apply in_map_iff.
    exists e. split; auto. apply in_concat. exists (l1 ++ e :: l2). split.
    + eapply nth_error_In; eauto.
    + apply in_or_app; right; left; reflexivity.
  - split; [discriminate|]. intros H. apply erase_levels_none in E.
    unfold hqp_names in H. apply in_map_iff in H. destruct H as (e & En & He).
    rewrite Forall_forall in E. exfalso; eapply E; eauto.
Qed.

Lemma drop_names s n : NoDup (hqp_names s) -> NoDup (hqp_names (w_hqp s (drop n (f_heap s) (f_hqp s)))).
Proof.
  intros N. unfold hqp_names, drop; simpl. rewrite concat_map_filter.
  apply NoDup_filter_map; exact N.
Qed.

(** The three erasures of a contact removal. *)
Definition not3 (n m : string) : bool :=
  negb (String.eqb m (n ++ "_motion_task")) &&
  (negb (String.eqb m (n ++ "_force_constraint")) && negb (String.eqb m (n ++ "_force_reg_task"))).
Lemma erase3_drop s n : NoDup (hqp_names s) ->
  erase3 s n = w_hqp s (map (filter (fun e => not3 n (nm s e))) (f_hqp s)).
Proof.
  intros N. unfold erase3.
  rewrite (erase_hqp_drop s) by exact N.
  assert (N1 := drop_names s (n ++ "_motion_task") N).
  set (s1 := w_hqp s _) in *. rewrite (erase_hqp_drop s1) by exact N1.
  assert (N2 := drop_names s1 (n ++ "_force_constraint") N1).
  set (s2 := w_hqp s1 _) in *. rewrite (erase_hqp_drop s2) by exact N2.
  unfold s2, s1, drop; simpl. rewrite !map_map.
  assert (E : forall X, w_hqp (w_hqp (w_hqp s (map (filter (fun e => negb (String.eqb (name_at (f_heap s) (snd e))
     (n ++ "_motion_task")))) (f_hqp s)))
     (map (fun x => filter (fun e => negb (String.eqb (name_at (f_heap s) (snd e)) (n ++ "_force_constraint")))
        (filter (fun e => negb (String.eqb (name_at (f_heap s) (snd e)) (n ++ "_motion_task"))) x)) (f_hqp s))) X
     = w_hqp s X) by reflexivity.
  rewrite E. f_equal. apply map_ext. intros l. rewrite !filter_filter.
  apply filter_ext. intros e. unfold not3, nm. rewrite andb_assoc. reflexivity.
Qed.

(** ** Monotonicity of the ownership facts *)
Definition mono (Q : nat -> Prop) s s' : Prop :=
  (forall a x, info s a = Some x -> info s' a = Some x) /\
  (forall i a, Q a -> in_level s i a -> in_level s' i a) /\
  (forall o x, nth_error (map oshape (f_objs s)) o = Some x ->
               nth_error (map oshape (f_objs s')) o = Some x).
Definition any (a : nat) := True.

Lemma mono_trans s s' s'' : mono any s s' -> mono any s' s'' -> mono any s s''.
Proof. intros (A & B & C) (A' & B' & C'). repeat split; auto. Qed.
Lemma task_ok_mono Q s s' t : mono Q s s' -> Q (tl_cstr t) -> task_ok s t -> task_ok s' t.
Proof. intros (A & B & C) HQ ((kd & r & E) & Hr & Hl). split; [|split]; eauto. Qed.
Lemma con_ok_mono Q s s' c x : mono Q s s' -> (forall a, In a (con_addrs c) -> Q a) ->
  con_ok s c x -> con_ok s' c x.
Proof.
  intros (A & B & C) HQ. destruct x as [[[[n nf] mr] fr] rr]. unfold con_ok.
  intros (E & Em & Ef & Er & (i & Lm) & Lf & Lr).
  assert (Qm : Q (cl_motion c)) by (apply HQ; simpl; auto).
  assert (Qf : Q (cl_force c)) by (apply HQ; simpl; auto).
  assert (Qr : Q (cl_reg c)) by (apply HQ; simpl; auto).
  repeat split; eauto.
Qed.

Definition valid s := Forall (fun e => snd e < List.length (f_heap s)) (concat (f_hqp s)).
Lemma invA_valid s : invA s -> valid s.
Proof. intros H. apply (pa_addr _ (invA_preA _ H)). Qed.

Lemma info_lt s a x : info s a = Some x -> a < List.length (f_heap s).
Proof.
  unfold info, shapes. intros H. rewrite <- (map_length shape). apply nth_error_Some.
  destruct (nth_error (map shape (f_heap s)) a); [discriminate|]. simpl in H; discriminate.
Qed.
Lemma info_valid s a : a < List.length (f_heap s) -> exists x, info s a = Some x.
Proof.
  intros H. unfold info, shapes. destruct (nth_error (map shape (f_heap s)) a) eqn:E; [eexists; reflexivity|].
  apply nth_error_None in E. rewrite map_length in E. lia.
Qed.
Lemma name_info s s' a x : info s a = Some x -> info s' a = Some x ->
  name_at (f_heap s') a = name_at (f_heap s) a.
Proof.
  intros H H'. destruct x as [[n kd] r]. rewrite (info_name _ _ _ _ _ H), (info_name _ _ _ _ _ H'). reflexivity.
Qed.

(** Pushing a new constraint. *)
Section Push.
Variables (s : fstate) (c : constr K) (w : K) (lvl : nat) (hq : list (list (K * nat))).
Hypothesis Hp : push_level (f_hqp s) lvl (w, List.length (f_heap s)) = Some hq.
Hypothesis Hv : valid s.
Let s1 := w_hqp (w_heap s (f_heap s ++ [c])) hq.

Lemma push_info : info s1 (List.length (f_heap s)) = Some (fst (shape c)).
Proof.
  unfold info, shapes, s1; simpl. rewrite map_app. simpl.
  rewrite <- (map_length shape (f_heap s)), nth_error_app_new. reflexivity.
Qed.
Lemma push_in_level : in_level s1 lvl (List.length (f_heap s)).
Proof.
  apply push_level_spec in Hp. destruct Hp as (x & Hx & E). unfold in_level, s1; simpl. rewrite E.
  exists (x ++ [(w, List.length (f_heap s))]). split.
  - apply nth_error_lupd_eq. apply nth_error_Some; congruence.
  - rewrite map_app. apply in_or_app. right; left; reflexivity.
Qed.
Lemma push_mono : mono any s s1.
Proof.
  repeat split.
  - intros a x H. unfold info, shapes in *; unfold s1; simpl. rewrite map_app.
    destruct (nth_error (map shape (f_heap s)) a) eqn:E; [|discriminate].
    change (map shape [c]) with [shape c]. rewrite (nth_error_app_old _ _ _ _ E). exact H.
  - intros i a _ (l & Hl & Ha). apply push_level_spec in Hp. destruct Hp as (x & Hx & E).
    unfold in_level, s1; simpl. rewrite E. destruct (Nat.eq_dec lvl i) as [<-|Hne].
    + exists (x ++ [(w, List.length (f_heap s))]). split.
      * apply nth_error_lupd_eq. apply nth_error_Some; congruence.
      * rewrite map_app. apply in_or_app. left. congruence.
    + exists l. split; auto. rewrite nth_error_lupd_neq by exact Hne. exact Hl.
  - auto.
Qed.
Lemma push_perm : Permutation (map snd (concat hq)) (List.length (f_heap s) :: map snd (concat (f_hqp s))).
Proof. apply push_level_perm in Hp. destruct Hp as [P _]. apply (Permutation_map snd) in P. exact P. Qed.
Lemma push_names : Permutation (hqp_names s1) (c_name c :: hqp_names s).
Proof.
  unfold hqp_names, s1; simpl.
  assert (P := proj1 (push_level_perm _ _ _ _ Hp)).
  apply (Permutation_map (fun e => name_at (f_heap s ++ [c]) (snd e))) in P. rewrite P. simpl.
  unfold name_at at 1. rewrite nth_error_app_new. constructor.
  erewrite map_ext_in; [reflexivity|]. intros e He. unfold name_at.
  unfold valid in Hv. rewrite Forall_forall in Hv. rewrite nth_error_app1 by (apply Hv; exact He). reflexivity.
Qed.
Lemma push_valid : valid s1.
Proof.
  unfold valid, s1; simpl. assert (P := proj1 (push_level_perm _ _ _ _ Hp)). rewrite P.
  rewrite app_length; simpl. constructor; [simpl; lia|].
  eapply Forall_impl; [|exact Hv]. simpl; intros; lia.
Qed.
End Push.

Lemma same_info s s' a : same s s' -> info s' a = info s a.
Proof. intros H. unfold info. rewrite (sm_sh _ _ H). reflexivity. Qed.
Lemma same_mono s s' : same s s' -> mono any s s'.
Proof.
  intros H. repeat split.
  - intros a x. rewrite (same_info _ _ _ H). auto.
  - intros i a _. unfold in_level. rewrite (sm_hqp _ _ H). auto.
  - rewrite (sm_obj _ _ H). auto.
Qed.
Lemma invB_same s s' : same s s' -> invB s -> invB s'.
Proof.
  intros H HB. assert (M := same_mono _ _ H).
  assert (Et : tasks s' = tasks s) by (unfold tasks; rewrite (sm_mot _ _ H), (sm_for _ _ H), (sm_act _ _ H); reflexivity).
  constructor.
  - rewrite (sm_hqp _ _ H). unfold owners. rewrite Et, (sm_base _ _ H), (sm_con _ _ H). apply (b_perm _ HB).
  - rewrite (hqp_names_same _ _ H). apply (b_names _ HB).
  - rewrite (sm_base _ _ H). apply M; [exact I|apply (b_base _ HB)].
  - rewrite Et. intros t Ht. eapply task_ok_mono; [exact M|exact I|apply (b_task _ HB); exact Ht].
  - rewrite (sm_con _ _ H). intros c Hc. destruct (b_con _ HB c Hc) as [x Hx]. exists x.
    eapply con_ok_mono; [exact M|intros; exact I|exact Hx].
Qed.

Lemma in_level_addrs s ls i a : addrs ls = addrs (f_hqp s) -> in_level s i a -> in_level (w_hqp s ls) i a.
Proof.
  intros E (l & Hl & Ha). unfold in_level; simpl.
  assert (E' := f_equal (fun x => nth_error x i) E). unfold addrs in E'. simpl in E'.
  rewrite !nth_error_map, Hl in E'. destruct (nth_error ls i) as [l'|]; [|discriminate].
  injection E' as E'. exists l'. split; auto. rewrite E'; exact Ha.
Qed.

Lemma invB_reweight s ls : addrs ls = addrs (f_hqp s) -> invB s -> invB (w_hqp s ls).
Proof.
  intros E HB. assert (M : mono any s (w_hqp s ls)).
  { repeat split; auto. intros i a _. apply in_level_addrs; exact E. }
  assert (EA : map snd (concat ls) = map snd (concat (f_hqp s))) by (rewrite !concat_addrs, E; reflexivity).
  constructor.
  - simpl. rewrite EA. apply (b_perm _ HB).
  - rewrite hqp_names_addr. simpl. rewrite EA, <- hqp_names_addr. apply (b_names _ HB).
  - apply M; [exact I|apply (b_base _ HB)].
  - intros t Ht. eapply task_ok_mono; [exact M|exact I|apply (b_task _ HB); exact Ht].
  - intros c Hc. destruct (b_con _ HB c Hc) as [x Hx]. exists x.
    eapply con_ok_mono; [exact M|intros; exact I|exact Hx].
Qed.

Lemma invB_grow s n : invB s -> invB (w_hqp s (grow (f_hqp s) n)).
Proof.
  intros HB. assert (M : mono any s (w_hqp s (grow (f_hqp s) n))).
  { repeat split; auto. intros i a _ (l & Hl & Ha). exists l. split; auto. simpl. unfold grow.
    rewrite nth_error_app1; [exact Hl|]. apply nth_error_Some; congruence. }
  constructor.
  - simpl. rewrite grow_concat. apply (b_perm _ HB).
  - unfold hqp_names; simpl. rewrite grow_concat. apply (b_names _ HB).
  - apply M; [exact I|apply (b_base _ HB)].
  - intros t Ht. eapply task_ok_mono; [exact M|exact I|apply (b_task _ HB); exact Ht].
  - intros c Hc. destruct (b_con _ HB c Hc) as [x Hx]. exists x.
    eapply con_ok_mono; [exact M|intros; exact I|exact Hx].
Qed.

(** Fields the invariant does not look at. *)
Definition sameB s s' : Prop :=
  shapes s' = shapes s /\ f_hqp s' = f_hqp s /\ f_base s' = f_base s /\
  f_contacts s' = f_contacts s /\ f_motions s' = f_motions s /\ f_forces s' = f_forces s /\
  f_acts s' = f_acts s /\ map oshape (f_objs s') = map oshape (f_objs s).
Lemma invB_sameB s s' : sameB s s' -> invB s -> invB s'.
Proof.
  intros (H1 & H2 & H3 & H4 & H5 & H6 & H7 & H8) HB. 
  assert (M : mono any s s').
  { repeat split.
    - intros a x. unfold info. rewrite H1. auto.
    - intros i a _. unfold in_level. rewrite H2. auto.
    - rewrite H8. auto. }
  assert (Et : tasks s' = tasks s) by (unfold tasks; rewrite H5, H6, H7; reflexivity).
  constructor.
  - rewrite H2. unfold owners. rewrite Et, H3, H4. apply (b_perm _ HB).
  - replace (hqp_names s') with (hqp_names s); [apply (b_names _ HB)|].
    unfold hqp_names. rewrite H2. apply map_ext. intros e. symmetry. apply name_at_shape. exact H1.
  - rewrite H3. apply M; [exact I|apply (b_base _ HB)].
  - rewrite Et. intros t Ht. eapply task_ok_mono; [exact M|exact I|apply (b_task _ HB); exact Ht].
  - rewrite H4. intros c Hc. destruct (b_con _ HB c Hc) as [x Hx]. exists x.
    eapply con_ok_mono; [exact M|intros; exact I|exact Hx].
Qed.

(** ** Adding a task.  [upd] appends the task level to one of the three lists. *)
Lemma invB_add_task s n kd r w lvl s' a (upd : fstate -> tlevel -> fstate) id :
  invA s -> invB s -> ~ reserved n -> ~ In n (hqp_names s) ->
  add_task_cstr s n kd r w lvl = Some (s', a) ->
  (forall s t, f_hqp (upd s t) = f_hqp s /\ f_heap (upd s t) = f_heap s /\ f_base (upd s t) = f_base s /\
               f_contacts (upd s t) = f_contacts s /\ f_objs (upd s t) = f_objs s /\
               Permutation (tasks (upd s t)) (t :: tasks s)) ->
  invB (upd s' (mkTl id n lvl a)).
Proof.
  intros HA HB Hr Hn Ha Hu. apply add_task_cstr_spec in Ha.
  destruct Ha as (hq0 & hq & x & Hq & Hx & _ & Hp & -> & Es).
  set (a := List.length (f_heap s)) in *.
  set (sc := if lvl =? 0 then _ else s) in Es.
  assert (Fc : f_heap sc = f_heap s /\ f_base sc = f_base s /\ f_contacts sc = f_contacts s /\
               f_objs sc = f_objs s /\ tasks sc = tasks s /\ f_hqp sc = f_hqp s).
  { unfold sc. destruct (lvl =? 0); [destruct (is_eq kd)|]; repeat split; reflexivity. }
  destruct Fc as (F1 & F2 & F3 & F4 & F5 & F6).
  set (s0 := w_hqp sc hq0).
  assert (HB0 : invB s0).
  { assert (HBc : invB sc).
    { eapply invB_sameB; [|exact HB]. unfold sameB, shapes. 
      unfold sc. destruct (lvl =? 0); [destruct (is_eq kd)|]; repeat split; reflexivity. }
    destruct Hq as [-> | ->].
    - unfold s0. rewrite <- F6, w_hqp_id. exact HBc.
    - unfold s0. rewrite <- F6. apply invB_grow; exact HBc. }
  assert (HV0 : valid s0).
  { unfold valid, s0; simpl. rewrite F1. destruct Hq as [-> | ->]; [|rewrite grow_concat]; apply invA_valid; exact HA. }
  assert (Hn0 : ~ In n (hqp_names s0)).
  { intros H. apply Hn. unfold hqp_names, s0 in *; simpl in *. rewrite F1 in H.
    destruct Hq as [-> | ->]; [|rewrite grow_concat in H]; exact H. }
  set (c := new_task_cstr n kd r (nVar s)) in *.
  assert (Ea : a = List.length (f_heap s0)) by (unfold a, s0; simpl; rewrite F1; reflexivity).
  assert (Hp0 : push_level (f_hqp s0) lvl (w, List.length (f_heap s0)) = Some hq) by (rewrite <- Ea; exact Hp).
  assert (Es1 : s' = w_hqp (w_heap s0 (f_heap s0 ++ [c])) hq).
  { rewrite Es. unfold s0 at 2. simpl. rewrite F1. reflexivity. }
  clear Es. destruct (Hu s' (mkTl id n lvl a)) as (U1 & U2 & U3 & U4 & U5 & U6).
  assert (M : mono any s0 (upd s' (mkTl id n lvl a))).
  { eapply mono_trans; [apply (push_mono s0 c w lvl hq Hp0)|]. rewrite <- Es1.
    repeat split.
    - intros b y. unfold info, shapes. rewrite U2. auto.
    - intros i b _. unfold in_level. rewrite U1. auto.
    - rewrite U5. auto. }
  assert (Etasks : tasks s' = tasks s0) by (rewrite Es1; reflexivity).
  assert (Ec : f_contacts s' = f_contacts s0) by (rewrite Es1; reflexivity).
  assert (Eb : f_base s' = f_base s0) by (rewrite Es1; reflexivity).
  constructor.
  - rewrite U1. assert (Ehq : f_hqp s' = hq) by (rewrite Es1; reflexivity). rewrite Ehq.
    rewrite (push_perm s0 w lvl hq Hp0).
    rewrite (b_perm _ HB0). unfold owners. rewrite U3, U4, Eb, Ec, U6, Etasks.
    rewrite <- Ea. simpl. apply perm_swap.
  - unfold hqp_names. rewrite U1, U2. fold (hqp_names s'). rewrite Es1.
    rewrite (push_names s0 c w lvl hq Hp0 HV0). constructor; [|apply (b_names _ HB0)].
    unfold c. rewrite new_task_name. exact Hn0.
  - rewrite U3, Eb. apply M; [exact I|apply (b_base _ HB0)].
  - intros t Ht. rewrite U6 in Ht. destruct Ht as [<-|Ht].
    + split; [|split].
      * exists (c_kind c), r. simpl. unfold info, shapes. rewrite U2.
        assert (PI := push_info s0 c hq). unfold info, shapes in PI. rewrite Es1, Ea, PI.
        unfold shape; simpl. unfold c. rewrite new_task_name, new_task_rows. reflexivity.
      * exact Hr.
      * simpl. unfold in_level. rewrite U1. rewrite Es1, Ea. apply (push_in_level s0 c w lvl hq Hp0).
    + rewrite Etasks in Ht. eapply task_ok_mono; [exact M|exact I|apply (b_task _ HB0); exact Ht].
  - intros k Hk. rewrite U4, Ec in Hk. destruct (b_con _ HB0 k Hk) as [y Hy]. exists y.
    eapply con_ok_mono; [exact M|intros; exact I|exact Hy].
Qed.

(** ** Resizing keeps names, kinds and rows *)
Lemma resize_info s s' : preA s -> resize_hqp s = Some s' -> forall a, info s' a = info s a.
Proof.
  intros HP Hr a. destruct (resize_hqp_spec _ _ HP Hr) as [HR _]. unfold info.
  destruct (nth_error (shapes s) a) as [[[[n kd] r] c]|] eqn:E.
  - destruct (resized_fields _ _ _ _ _ _ _ _ _ HR E) as (c' & -> & _). reflexivity.
  - destruct HR as (L & _ & _). apply nth_error_None in E.
    assert (E' : nth_error (shapes s') a = None) by (apply nth_error_None; lia). rewrite E'. reflexivity.
Qed.
Lemma resize_name s s' : preA s -> resize_hqp s = Some s' ->
  forall a, name_at (f_heap s') a = name_at (f_heap s) a.
Proof.
  intros HP Hr a. assert (H := resize_info _ _ HP Hr a). unfold info, shapes in H.
  rewrite !nth_error_map in H. unfold name_at.
  destruct (nth_error (f_heap s') a), (nth_error (f_heap s) a); simpl in H; try discriminate; auto.
  injection H; auto.
Qed.
Lemma resize_fields s s' : preA s -> resize_hqp s = Some s' ->
  f_hqp s' = f_hqp s /\ f_base s' = f_base s /\ f_contacts s' = f_contacts s /\ tasks s' = tasks s /\
  f_objs s' = f_objs s /\ List.length (f_heap s') = List.length (f_heap s) /\
  f_eq s' = f_eq s /\ f_in s' = f_in s /\ f_k s' = f_k s /\ f_nv s' = f_nv s.
Proof.
  intros HP Hr. destruct (resize_hqp_spec _ _ HP Hr) as [HR Es].
  assert (L : List.length (f_heap s') = List.length (f_heap s)).
  { destruct HR as [L _]. unfold shapes in L. rewrite !map_length in L. exact L. }
  rewrite Es in *. repeat split; auto.
Qed.
Lemma invB_resize s s' : preA s -> resize_hqp s = Some s' -> invB s -> invB s'.
Proof.
  intros HP Hr HB. assert (HI := resize_info _ _ HP Hr).
  destruct (resize_fields _ _ HP Hr) as (F1 & F2 & F3 & F4 & F5 & _).
  assert (M : mono any s s').
  { repeat split.
    - intros a x. rewrite HI. auto.
    - intros i a _. unfold in_level. rewrite F1. auto.
    - rewrite F5. auto. }
  constructor.
  - rewrite F1. unfold owners. rewrite F2, F3, F4. apply (b_perm _ HB).
  - replace (hqp_names s') with (hqp_names s); [apply (b_names _ HB)|].
    unfold hqp_names. rewrite F1. apply map_ext. intros e. symmetry. apply resize_name; assumption.
  - rewrite F2. apply M; [exact I|apply (b_base _ HB)].
  - rewrite F4. intros t Ht. eapply task_ok_mono; [exact M|exact I|apply (b_task _ HB); exact Ht].
  - rewrite F3. intros c Hc. destruct (b_con _ HB c Hc) as [x Hx]. exists x.
    eapply con_ok_mono; [exact M|intros; exact I|exact Hx].
Qed.

(** ** Adding a contact *)
Lemma invB_add_contact s o wr wm lvl s' b :
  invA s -> invB s ->
  match nth_error (f_objs s) o with Some x => ~ In (co_name x) (contact_names s) | None => True end ->
  add_contact s o wr wm lvl = Ret s' b -> invB s'.
Proof.
  intros HA HB Hfr Ha. apply add_contact_spec in Ha.
  destruct Ha as (_ & x & s1 & q1 & q2 & q3 & Hx & Hr & P1 & P2 & P3 & ->).
  rewrite Hx in Hfr.
  assert (HP : preA (w_k s (f_k s + co_nforce x))) by (destruct (invA_preA _ HA); constructor; auto).
  assert (HB1 : invB s1).
  { eapply invB_resize; [exact HP|exact Hr|]. eapply invB_sameB; [|exact HB]. repeat split. }
  destruct (resize_fields _ _ HP Hr) as (F1 & F2 & F3 & F4 & F5 & F6 & _).
  simpl in F1, F2, F3, F4, F5, F6.
  assert (HN1 : hqp_names s1 = hqp_names s).
  { unfold hqp_names. rewrite F1. apply map_ext. intros e.
    rewrite (resize_name _ _ HP Hr). reflexivity. }
  assert (HV1 : valid s1).
  { unfold valid. rewrite F1, F6. apply invA_valid; exact HA. }
  set (l := List.length (f_heap s1)) in *.
  set (cm := new_eq (co_name x ++ "_motion_task") (co_mrows x) (nVar s1)) in *.
  set (cf := new_ineq (co_name x ++ "_force_constraint") (co_frows x) (nVar s1)) in *.
  set (cr := new_eq (co_name x ++ "_force_reg_task") (co_rrows x) (nVar s1)) in *.
  set (s2 := w_hqp (w_heap s1 (f_heap s1 ++ [cm])) q1).
  assert (L2 : List.length (f_heap s2) = S l) by (unfold s2; simpl; rewrite len1; reflexivity).
  set (s3 := w_hqp (w_heap s2 (f_heap s2 ++ [cf])) q2).
  assert (L3 : List.length (f_heap s3) = S (S l)) by (unfold s3; simpl; rewrite len1, len1; reflexivity).
  set (s4 := w_hqp (w_heap s3 (f_heap s3 ++ [cr])) q3).
  assert (P2' : push_level (f_hqp s2) 0 (n1, List.length (f_heap s2)) = Some q2) by (rewrite L2; exact P2).
  assert (P3' : push_level (f_hqp s3) 1 (wr, List.length (f_heap s3)) = Some q3) by (rewrite L3; exact P3).
  assert (HV2 : valid s2) by (apply (push_valid s1 cm wm lvl q1 P1 HV1)).
  assert (HV3 : valid s3) by (apply (push_valid s2 cf n1 0 q2 P2' HV2)).
  assert (M2 := push_mono s1 cm wm lvl q1 P1).
  assert (M3 := push_mono s2 cf n1 0 q2 P2').
  assert (M4 := push_mono s3 cr wr 1 q3 P3').
  fold s2 in M2. fold s3 in M3. fold s4 in M4.
  set (cl := mkCl o (f_k s) l (S l) (S (S l))).
  assert (Hs : sameB (w_contacts s4 (f_contacts s ++ [cl]))
     (w_in (w_eq (w_contacts (w_hqp (w_heap s1 (f_heap s1 ++ [cm] ++ [cf] ++ [cr])) q3)
        (f_contacts s ++ [cl])) (if lvl =? 0 then (f_eq s + Z.of_nat (co_mrows x))%Z else f_eq s))
        (f_in s + Z.of_nat (co_frows x))%Z)).
  { unfold sameB. repeat split. unfold shapes; simpl. rewrite <- !app_assoc. reflexivity. }
  eapply invB_sameB; [exact Hs|]. clear Hs.
  assert (M14 : mono any s1 s4) by (eauto using mono_trans).
  assert (M' : mono any s1 (w_contacts s4 (f_contacts s ++ [cl]))) by exact M14.
  assert (Im : info s4 l = Some ((co_name x ++ "_motion_task")%string, CEq, co_mrows x)).
  { apply M4, M3. apply (push_info s1 cm q1). }
  assert (If : info s4 (S l) = Some ((co_name x ++ "_force_constraint")%string, CIneq, co_frows x)).
  { apply M4. rewrite <- L2. apply (push_info s2 cf q2). }
  assert (Ir : info s4 (S (S l)) = Some ((co_name x ++ "_force_reg_task")%string, CEq, co_rrows x)).
  { rewrite <- L3. apply (push_info s3 cr q3). }
  assert (Perm : Permutation (map snd (concat (f_hqp s4))) (S (S l) :: S l :: l :: map snd (concat (f_hqp s1)))).
  { unfold s4; simpl. rewrite (push_perm s3 wr 1 q3 P3'), L3. constructor.
    unfold s3; simpl. rewrite (push_perm s2 n1 0 q2 P2'), L2. constructor.
    unfold s2; simpl. rewrite (push_perm s1 wm lvl q1 P1). reflexivity. }
  assert (PN : Permutation (hqp_names s4) ((co_name x ++ "_force_reg_task")%string ::
     (co_name x ++ "_force_constraint")%string :: (co_name x ++ "_motion_task")%string :: hqp_names s)).
  { unfold s4. rewrite (push_names s3 cr wr 1 q3 P3' HV3). constructor.
    unfold s3. rewrite (push_names s2 cf n1 0 q2 P2' HV2). constructor.
    unfold s2. rewrite (push_names s1 cm wm lvl q1 P1 HV1). rewrite HN1. reflexivity. }
  constructor.
  - simpl. change q3 with (f_hqp s4). rewrite Perm. rewrite (b_perm _ HB1).
    unfold owners. simpl.
    change (tasks (w_contacts s4 (f_contacts s ++ [cl]))) with (tasks s1).
    rewrite F3, flat_map_app. simpl.
    rewrite F2.
    apply Permutation_trans with
      (f_base s :: (map tl_cstr (tasks s1) ++ flat_map con_addrs (f_contacts s)) ++ [l; S l; S (S l)]).
    2:{ rewrite <- app_assoc. reflexivity. }
    generalize (map tl_cstr (tasks s1) ++ flat_map con_addrs (f_contacts s)). intros L.
    apply Permutation_trans with ([S (S l); S l; l] ++ f_base s :: L); [reflexivity|].
    rewrite Permutation_app_comm. simpl. constructor. apply Permutation_app_head.
    apply Permutation_trans with [S l; S (S l); l]; [apply perm_swap|].
    apply Permutation_trans with [S l; l; S (S l)]; [constructor; apply perm_swap|apply perm_swap].
  - change (hqp_names (w_contacts s4 (f_contacts s ++ [cl]))) with (hqp_names s4).
    eapply Permutation_NoDup; [symmetry; exact PN|].
    constructor.
    { intros [H|[H|H]].
      - apply (sfx_fr (co_name x) (co_name x)); congruence.
      - apply (sfx_mr (co_name x) (co_name x)); congruence.
      - apply Hfr. eapply reg_name_contact; eauto. }
    constructor.
    { intros [H|H].
      - apply (sfx_mf (co_name x) (co_name x)); congruence.
      - apply Hfr. eapply force_name_contact; eauto. }
    constructor.
    { intros H. apply Hfr. eapply motion_name_contact; eauto. }
    apply (b_names _ HB).
  - apply M'; [exact I|]. apply (b_base _ HB1).
  - intros t Ht. change (In t (tasks s1)) in Ht.
    eapply task_ok_mono; [exact M'|exact I|apply (b_task _ HB1); exact Ht].
  - simpl. intros c Hc. apply in_app_or in Hc. destruct Hc as [Hc|[<-|[]]].
    + rewrite <- F3 in Hc. destruct (b_con _ HB1 c Hc) as [y Hy]. exists y.
      eapply con_ok_mono; [exact M'|intros; exact I|exact Hy].
    + exists (oshape x). unfold con_ok, oshape at 1. simpl.
      split.
      { rewrite nth_error_map. change (f_objs s1) with (f_objs s1). rewrite F5, Hx. reflexivity. }
      split; [exact Im|]. split; [exact If|]. split; [exact Ir|].
      split; [|split].
      * exists lvl. apply M4; [exact I|]. apply M3; [exact I|]. apply (push_in_level s1 cm wm lvl q1 P1).
      * apply M4; [exact I|]. rewrite <- L2. apply (push_in_level s2 cf n1 0 q2 P2').
      * rewrite <- L3. apply (push_in_level s3 cr wr 1 q3 P3').
Qed.

End InvB.
