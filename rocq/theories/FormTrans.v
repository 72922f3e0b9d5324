(** Contact-removal transitions: the interpolated force bound (C16) and the end of
    the transition (C17). *)
From Coq Require Import String List Arith Bool ZArith QArith Lia Reals Lra Qreals.
From Verif Require Import Scalar Outcome Linalg Constraint Formulation ListUtil FormSpec FormInv FormInvB FormInvC FormOps FormSafe FormSafe2 FormData FormZero FormHist.
Import ListNotations.
Open Scope string_scope.
Open Scope list_scope.
Open Scope nat_scope.

Section Trans.
Context {K : num}.
Variable dbg : bool.
Implicit Types (s : fstate K).
Local Notation fst_ := (fstate K).
Local Notation step := (@Formulation.step K dbg).

(** Specification: the value of the interpolated bound of transition [c] at time
    [t], the last transition of a list on object [o], what the transitions of a list
    do to one object, and whether a transition is over. *)
Definition interp (c : ctrans K) (t : K) : K :=
  (tr_f0 c + (t - tr_t0 c) / (tr_t1 c - tr_t0 c) * (tr_f1 c - tr_f0 c))%num.
Fixpoint last_on (o : nat) (l : list (ctrans K)) : option (ctrans K) :=
  match l with
  | [] => None
  | c :: l' => match last_on o l' with
               | Some d => Some d
               | None => if tr_obj c =? o then Some c else None
               end
  end.
Definition bounded_by (t : K) (c : option (ctrans K)) (x : cobj K) : cobj K :=
  match c with Some c => set_fmax x (interp c t) | None => x end.
Definition live (t : K) (c : ctrans K) : Prop := (t <=? tr_t1 c)%num = true.
Definition over (t : K) (c : ctrans K) : Prop := (t <=? tr_t1 c)%num = false.

Lemma nth_lupd {A} (l : list A) i j y :
  nth_error (lupd l i y) j = if i =? j then option_map (fun _ => y) (nth_error l j) else nth_error l j.
Proof.
  revert i j; induction l as [|z l IH]; intros [|i] [|j]; simpl; auto.
  destruct (i =? j); reflexivity.
Qed.

Lemma nth_ext_err {A} (l l' : list A) : (forall i, nth_error l i = nth_error l' i) -> l = l'.
Proof.
  revert l'; induction l as [|a l IH]; intros [|b l'] H; auto; try (specialize (H 0); discriminate).
  f_equal; [specialize (H 0); simpl in H; congruence|]. apply IH. intros i. exact (H (S i)).
Qed.

Lemma set_fmax_form s o f s' b : obj_set_fmax s o f = Ret s' b ->
  exists x, nth_error (f_objs s) o = Some x /\ s' = w_objs s (lupd (f_objs s) o (set_fmax x f)).
Proof.
  unfold obj_set_fmax, cobj_at. destruct (nth_error (f_objs s) o) as [x|]; [|discriminate].
  destruct (_ || _); [|discriminate]. intros H. injection H as <- _. eauto.
Qed.

(** Transitions that are all running only move force bounds. *)
Lemma run_live todo : forall s dn s' u,
  Forall (live (f_t s)) todo -> run_transitions dbg s dn todo = Ret s' u ->
  s' = w_objs s (f_objs s') /\
  forall o, nth_error (f_objs s') o =
            option_map (bounded_by (f_t s) (last_on o todo)) (nth_error (f_objs s) o).
Proof.
  induction todo as [|c todo IH]; intros s dn s' u HL Hr; simpl in Hr.
  - injection Hr as <- _. split; [apply fs_ext; reflexivity|]. intros o. simpl.
    destruct (nth_error (f_objs s) o); reflexivity.
  - inversion HL as [|? ? L1 L2]; subst. unfold live in L1.
    destruct (assert_ dbg _); [|discriminate]. rewrite L1 in Hr.
    destruct (obj_set_fmax s (tr_obj c) _) as [s1 b1| |] eqn:E1; try discriminate.
    destruct (set_fmax_form _ _ _ _ _ E1) as (x & Ex & E).
    assert (T1 : f_t s1 = f_t s) by (rewrite E; reflexivity).
    destruct (IH s1 (dn ++ [c]) s' u) as [F1 F2]; [rewrite T1; exact L2|exact Hr|].
    split; [rewrite F1, E; apply fs_ext; reflexivity|].
    intros o. rewrite F2, T1. rewrite E. cbn [f_objs w_objs]. rewrite nth_lupd. simpl.
    destruct (tr_obj c =? o) eqn:Eo.
    + apply Nat.eqb_eq in Eo. subst o. rewrite Ex. simpl.
      destruct (last_on (tr_obj c) todo); reflexivity.
    + destruct (last_on o todo); reflexivity.
Qed.

Lemma last_on_in o l c : last_on o l = Some c -> In c l /\ tr_obj c = o.
Proof.
  induction l as [|d l IH]; simpl; [discriminate|].
  destruct (last_on o l) as [e|]; intros H.
  - injection H as ->. destruct IH; auto.
  - destruct (tr_obj d =? o) eqn:E; [|discriminate]. injection H as ->.
    apply Nat.eqb_eq in E. auto.
Qed.

(** C16, generic part: a computation during which no transition ends moves the force
    bound of each object to the interpolation of its last transition, and leaves
    everything else about contacts alone. *)
Theorem compute_bounds s t e s' :
  Forall (live t) (f_trans s) -> step s (OCompute t e) = Ret s' OutUnit ->
  f_trans s' = f_trans s /\ f_contacts s' = f_contacts s /\
  forall o x, nth_error (f_objs s) o = Some x ->
    nth_error (f_objs s') o = Some (bounded_by t (last_on o (f_trans s)) x).
Proof.
  intros HL Hs. destruct (compute_inv _ _ _ _ _ Hs) as (s1 & R & C).
  destruct (run_live (f_trans s) (w_t s t) [] s1 tt HL R) as [F1 F2].
  assert (Cf := comp_fill_frame _ _ _ C).
  repeat split.
  - rewrite Cf. cbn [f_trans w_dec w_hfext w_dyn w_Jc w_heap]. rewrite F1. reflexivity.
  - rewrite Cf. cbn [f_contacts w_dec w_hfext w_dyn w_Jc w_heap]. rewrite F1. reflexivity.
  - intros o x Ex. rewrite (proj2 (comp_fill_trans _ _ _ C)). rewrite F2.
    change (f_objs (w_t s t)) with (f_objs s). rewrite Ex. reflexivity.
Qed.

(** Scheduling: what removeRigidContact(name, duration) with a positive duration
    records.  The starting bound is the normal force of the last decoded forces, or
    the current maximum when they do not cover the slot of the contact. *)
Definition slot_force s (c : clevel) (x : cobj K) : vec K :=
  mkVec (co_nforce x) (fun r => vget (f_f s) (cl_index c + r)).
Definition start_bound s (c : clevel) (x : cobj K) : K :=
  if cl_index c + co_nforce x <=? vlen (f_f s) then co_nf x (slot_force s c x) else co_fmax x.

Theorem schedule s n d s' :
  (n0 <? d)%num = true -> step s (ORemContact n d) = Ret s' (OutBool true) ->
  exists c x, In c (f_contacts s) /\ nth_error (f_objs s) (cl_obj c) = Some x /\ co_name x = n /\
    s' = w_trans s (f_trans s ++ [mkTr (cl_obj c) (f_t s) (f_t s + d)%num (start_bound s c x)
                                       (co_fmin x + nofQ (1 # 1000))%num]).
Proof.
  intros Hd. cbn [step Formulation.step]. unfold remove_contact. rewrite Hd.
  unfold find_contact. destruct (take_contact s n (f_contacts s)) as [[c r]|] eqn:T; [|discriminate].
  apply take_contact_spec in T. destruct T as (l1 & l2 & T & _ & Hn & _).
  unfold cobj_at. destruct (nth_error (f_objs s) (cl_obj c)) as [x|] eqn:Ex; [|discriminate].
  simpl. intros H. injection H as <-. exists c, x.
  split; [rewrite T; apply in_elt|]. split; [exact Ex|]. split.
  - unfold cl_name, cobj_at in Hn. rewrite Ex in Hn. exact Hn.
  - f_equal. f_equal. f_equal. unfold start_bound, slot_force, vsegment.
    destruct (cl_index c + co_nforce x <=? vlen (f_f s)); reflexivity.
Qed.

(** ** End of a transition *)
Definition without (n : string) (l : list string) := filter (fun m => negb (String.eqb m n)) l.
Definition without3 (n : string) (l : list string) :=
  without (n ++ "_motion_task") (without (n ++ "_force_constraint") (without (n ++ "_force_reg_task") l)).

Lemma filter_map {A B} (f : A -> B) p l : filter p (map f l) = map f (filter (fun a => p (f a)) l).
Proof. induction l as [|a l IH]; simpl; [reflexivity|]. destruct (p (f a)); simpl; congruence. Qed.

Lemma without3_not3 n l : without3 n l = filter (not3 n) l.
Proof.
  unfold without3, without. rewrite !filter_filter. apply filter_ext. intros m.
  unfold not3. destruct (String.eqb m _), (String.eqb m _), (String.eqb m _); reflexivity.
Qed.

Lemma remove_now_gone s n s' b :
  invA s -> invB s -> remove_contact_now dbg s n = Ret s' b ->
  contact_names s' = without n (contact_names s) /\ hqp_names s' = without3 n (hqp_names s).
Proof.
  intros HA HB Hr. rewrite without3_not3.
  destruct (in_dec string_dec n (contact_names s)) as [Hn|Hn].
  - destruct (remove_present _ s n s' b HA HB Hn Hr) as (c & s4 & eq' & in' & Hc & En & Hz & -> & _ & _).
    set (s3 := w_contacts _ _) in Hz.
    assert (HP3 : preA s3).
    { destruct (invA_preA _ HA) as [Pb Pk Pa]. constructor; auto.
      unfold s3; simpl. rewrite concat_map_filter. apply Forall_forall. intros e He.
      apply filter_In in He. rewrite Forall_forall in Pa. apply Pa; tauto. }
    destruct (resize_fields _ _ HP3 Hz) as (F1 & _ & F3 & _ & F5 & _).
    split.
    + unfold contact_names. cbn [f_contacts w_contacts].
      assert (E : forall l k, map (cl_name (w_contacts s4 (reindex s4 0 (cflt s n (f_contacts s))))) (reindex s4 k l)
                   = map (cl_name s) l).
      { induction l as [|a l IH]; intros k; [reflexivity|]. simpl. f_equal; [|apply IH].
        unfold cl_name, cobj_at. simpl. rewrite F5. reflexivity. }
      rewrite E. unfold cflt, without. rewrite filter_map. reflexivity.
    + rewrite !hqp_names_addr. cbn [f_heap f_hqp w_contacts].
      rewrite (map_ext _ _ (resize_name _ _ HP3 Hz)). rewrite F1.
      change (f_heap s3) with (f_heap s). unfold s3. cbn [f_hqp w_contacts w_in w_eq w_k w_hqp].
      rewrite concat_map_filter, !map_map, filter_map. reflexivity.
  - destruct (remove_absent _ s n s' b HA HB Hn Hr) as [-> _]. split.
    + unfold without. symmetry. apply filter_all. intros m Hm. apply negb_true_iff, String.eqb_neq. intros ->.
      contradiction.
    + assert (N3 := not3_absent s n HA HB Hn).
      rewrite hqp_names_addr, map_map, filter_map. rewrite <- N3 at 1. rewrite concat_map_filter. reflexivity.
Qed.

(** The transition loop stops at the first transition that is over. *)
Lemma run_over l1 : forall s dn c l2 s' u,
  Forall (live (f_t s)) l1 -> over (f_t s) c ->
  run_transitions dbg s dn (l1 ++ c :: l2) = Ret s' u ->
  exists s1 s2 x b, s1 = w_objs s (f_objs s1) /\
    (forall o, nth_error (f_objs s1) o = option_map (bounded_by (f_t s) (last_on o l1)) (nth_error (f_objs s) o)) /\
    nth_error (f_objs s1) (tr_obj c) = Some x /\
    remove_contact_now dbg s1 (co_name x) = Ret s2 b /\ s' = w_trans s2 (dn ++ l1 ++ l2).
Proof.
  induction l1 as [|d l1 IH]; intros s dn c l2 s' u HL Ho Hr; simpl in Hr.
  - destruct (assert_ dbg _); [|discriminate]. unfold over in Ho. rewrite Ho in Hr.
    destruct (cobj_at s (tr_obj c)) as [x|] eqn:Ex; [|discriminate].
    destruct (remove_contact_now dbg s (co_name x)) as [s2 b| |] eqn:E2; try discriminate.
    injection Hr as <- _. exists s, s2, x, b. split; [apply fs_ext; reflexivity|].
    split; [|split; [exact Ex|split; [exact E2|reflexivity]]].
    intros o. simpl. destruct (nth_error (f_objs s) o); reflexivity.
  - inversion HL as [|? ? L1 L2]; subst. unfold live in L1.
    destruct (assert_ dbg _); [|discriminate]. rewrite L1 in Hr.
    destruct (obj_set_fmax s (tr_obj d) _) as [s1 b1| |] eqn:E1; try discriminate.
    destruct (set_fmax_form _ _ _ _ _ E1) as (x & Ex & E).
    assert (T1 : f_t s1 = f_t s) by (rewrite E; reflexivity).
    destruct (IH s1 (dn ++ [d]) c l2 s' u) as (s2 & s3 & y & b & F1 & F2 & F3 & F4 & F5);
      [rewrite T1; exact L2|rewrite T1; exact Ho|exact Hr|].
    exists s2, s3, y, b. split; [rewrite F1, E; apply fs_ext; reflexivity|].
    split; [|split; [exact F3|split; [exact F4|rewrite F5, <- app_assoc; reflexivity]]].
    intros o. rewrite F2, T1. rewrite E. cbn [f_objs w_objs]. rewrite nth_lupd. simpl.
    destruct (tr_obj d =? o) eqn:Eo.
    + apply Nat.eqb_eq in Eo. subst o. rewrite Ex. simpl.
      destruct (last_on (tr_obj d) l1); reflexivity.
    + destruct (last_on o l1); reflexivity.
Qed.

Lemma same_objs s os : map oshape os = map oshape (f_objs s) -> same s (w_objs s os).
Proof. intros E. constructor; auto. Qed.

Lemma bounded_shape s os t l :
  (forall o, nth_error os o = option_map (bounded_by t (last_on o l)) (nth_error (f_objs s) o)) ->
  map oshape os = map oshape (f_objs s).
Proof.
  intros H. apply nth_ext_err. intros o. rewrite !nth_error_map, H.
  destruct (nth_error (f_objs s) o) as [x|]; [|reflexivity]. simpl. f_equal.
  destruct (last_on o l); reflexivity.
Qed.

(** C17: the first transition that is over is completed by the computation: its
    contact and the three constraints of the contact are removed, the transition is
    forgotten, nothing else is removed. *)
Theorem transition_ends s t e s' l1 c l2 :
  invA s -> invB s -> f_trans s = l1 ++ c :: l2 -> Forall (live t) l1 -> over t c ->
  step s (OCompute t e) = Ret s' OutUnit ->
  f_trans s' = l1 ++ l2 /\
  contact_names s' = without (obj_name s (tr_obj c)) (contact_names s) /\
  hqp_names s' = without3 (obj_name s (tr_obj c)) (hqp_names s) /\
  (forall o, obj_name s' o = obj_name s o) /\
  (forall o x, nth_error (f_objs s) o = Some x ->
     nth_error (f_objs s') o = Some (bounded_by t (last_on o l1) x)).
Proof.
  intros HA HB Ht HL Ho Hs. destruct (compute_inv _ _ _ _ _ Hs) as (s1 & R & C).
  rewrite Ht in R.
  destruct (run_over l1 (w_t s t) [] c l2 s1 tt HL Ho R) as (s2 & s3 & x & b & F1 & F2 & F3 & F4 & F5).
  change (f_objs (w_t s t)) with (f_objs s) in F2. change (f_t (w_t s t)) with t in F2.
  assert (Sh := bounded_shape s (f_objs s2) t l1 F2).
  assert (Sm : same (w_t s t) s2) by (rewrite F1; apply same_objs; exact Sh).
  destruct (invAB_time s t (conj HA HB)) as [At Bt].
  assert (A2 := invA_same _ _ Sm At). assert (B2 := invB_same _ _ Sm Bt).
  destruct (remove_now_gone s2 _ s3 b A2 B2 F4) as [G1 G2].
  destruct (remove_now_rdata _ _ _ _ _ F4) as (_ & _ & Ob).
  assert (Cf := comp_fill_frame _ _ _ C).
  assert (En : co_name x = obj_name s (tr_obj c)).
  { rewrite <- (obj_name_shape s s2) by exact Sh. unfold obj_name. rewrite F3. reflexivity. }
  assert (Os : f_objs s' = f_objs s2).
  { rewrite (proj2 (comp_fill_trans _ _ _ C)), F5. exact Ob. }
  repeat split.
  - rewrite (proj1 (comp_fill_trans _ _ _ C)), F5. reflexivity.
  - rewrite (contact_names_same _ _ (comp_fill_same _ _ _ C)). rewrite F5.
    change (contact_names (w_trans s3 ([] ++ l1 ++ l2))) with (contact_names s3).
    rewrite G1, (contact_names_same _ _ Sm), En. reflexivity.
  - rewrite (hqp_names_same _ _ (comp_fill_same _ _ _ C)). rewrite F5.
    change (hqp_names (w_trans s3 ([] ++ l1 ++ l2))) with (hqp_names s3).
    rewrite G2, (hqp_names_same _ _ Sm), En. reflexivity.
  - intros o. apply obj_name_shape. rewrite Os. exact Sh.
  - intros o y Ey. rewrite Os, F2, Ey. reflexivity.
Qed.

(** Successive computations. *)
Fixpoint computes s (l : list (K * env K)) : option fst_ :=
  match l with
  | [] => Some s
  | (t, e) :: l' => match step s (OCompute t e) with Ret s' OutUnit => computes s' l' | _ => None end
  end.

Lemma compute_out s t e s' r : step s (OCompute t e) = Ret s' r -> r = OutUnit.
Proof.
  cbn [step Formulation.step]. unfold lift. destruct (compute _ _ _ _); try discriminate.
  intros H; injection H; auto.
Qed.
Lemma compute_AB s t e s' r : invA s -> invB s -> step s (OCompute t e) = Ret s' r -> invA s' /\ invB s'.
Proof.
  intros HA HB Hs. split.
  - apply (invA_step dbg s (OCompute t e)); [exact HA|rewrite Hs; reflexivity].
  - apply (invB_step dbg s (OCompute t e)); [exact HA|exact HB|exact I|rewrite Hs; reflexivity].
Qed.

Lemma first_over t l : (exists l1 c l2, l = l1 ++ c :: l2 /\ Forall (live t) l1 /\ over t c) \/ Forall (live t) l.
Proof.
  induction l as [|c l IH]; [right; constructor|].
  destruct ((t <=? tr_t1 c)%num) eqn:E.
  - destruct IH as [(l1 & d & l2 & -> & H1 & H2)|H].
    + left. exists (c :: l1), d, l2. split; [reflexivity|]. split; [constructor; [exact E|exact H1]|exact H2].
    + right. constructor; [exact E|exact H].
  - left. exists [], c, l. split; [reflexivity|]. split; [constructor|exact E].
Qed.

Lemma computes_absent l : forall s s' n,
  invA s -> invB s -> computes s l = Some s' -> ~ In n (contact_names s) -> ~ In n (contact_names s').
Proof.
  induction l as [|[t e] l IH]; cbn [computes]; intros s s' n HA HB H Hn.
  - injection H as <-. exact Hn.
  - destruct (step s (OCompute t e)) as [s1 r1| |] eqn:E; try discriminate.
    assert (r1 = OutUnit) by (eapply compute_out; exact E). subst r1. cbv iota in H.
    destruct (compute_AB _ _ _ _ _ HA HB E) as [A1 B1].
    apply (IH s1 s' n A1 B1 H). destruct (first_over t (f_trans s)) as [(l1 & c & l2 & El & HL & Ho)|HL].
    + destruct (transition_ends _ _ _ _ _ _ _ HA HB El HL Ho E) as (_ & G & _).
      rewrite G. unfold without. intros Hi. apply filter_In in Hi. tauto.
    + destruct (compute_inv _ _ _ _ _ E) as (s2 & R & C).
      destruct (run_live (f_trans s) (w_t s t) [] s2 tt HL R) as [F1 F2].
      assert (Sm : same (w_t s t) s2).
      { rewrite F1. apply same_objs. eapply (bounded_shape s); exact F2. }
      rewrite (contact_names_same _ _ (comp_fill_same _ _ _ C)), (contact_names_same _ _ Sm). exact Hn.
Qed.

(** C17: every computation made after the end of all pending transitions completes
    one of them, so as many computations as transitions complete them all. *)
Theorem transitions_drain l : forall s s',
  invA s -> invB s -> computes s l = Some s' ->
  List.length (f_trans s) <= List.length l ->
  (forall t e c, In (t, e) l -> In c (f_trans s) -> over t c) ->
  f_trans s' = [] /\ forall c, In c (f_trans s) -> ~ In (obj_name s (tr_obj c)) (contact_names s').
Proof.
  induction l as [|[t e] l IH]; cbn [computes List.length]; intros s s' HA HB H Hl Ho.
  - injection H as <-. destruct (f_trans s); [|simpl in Hl; lia]. split; [reflexivity|]. intros c [].
  - destruct (step s (OCompute t e)) as [s1 r1| |] eqn:E; try discriminate.
    assert (r1 = OutUnit) by (eapply compute_out; exact E). subst r1. cbv iota in H.
    destruct (compute_AB _ _ _ _ _ HA HB E) as [A1 B1].
    destruct (f_trans s) as [|c tr] eqn:Et.
    + assert (HL : Forall (live t) (f_trans s)) by (rewrite Et; constructor).
      destruct (compute_bounds _ _ _ _ HL E) as (G & _). rewrite Et in G.
      destruct (IH s1 s' A1 B1 H) as [J1 J2]; [rewrite G; simpl; lia|rewrite G; intros ? ? ? _ []|].
      split; [exact J1|intros c []].
    + assert (Hc : over t c) by (apply (Ho t e c); [left; reflexivity|left; reflexivity]).
      destruct (transition_ends s t e s1 [] c tr HA HB Et (Forall_nil _) Hc E) as (G1 & G2 & _ & G4 & _).
      simpl in G1. simpl in Hl.
      destruct (IH s1 s' A1 B1 H) as [J1 J2]; [rewrite G1; lia| |].
      * intros t' e' c' H1 H2. rewrite G1 in H2. apply (Ho t' e' c'); right; assumption.
      * split; [exact J1|]. intros d [->|Hd].
        -- eapply computes_absent; [exact A1|exact B1|exact H|]. rewrite G2. unfold without. intros Hi.
           apply filter_In in Hi. destruct Hi as [_ Hi]. rewrite String.eqb_refl in Hi. discriminate.
        -- rewrite <- G4. apply J2. rewrite G1. exact Hd.
Qed.

(** Calls that leave transitions and contact objects alone. *)
Definition quiet (o : fop K) : Prop :=
  match o with
  | ONewContact _ | OSetFMin _ _ | OSetFMax _ _ | OCompute _ _ => False
  | ORemContact _ d => (n0 <? d)%num = false
  | _ => True
  end.

Lemma add_task_frame s n kd r w lvl s' a : add_task_cstr s n kd r w lvl = Some (s', a) ->
  f_trans s' = f_trans s /\ f_objs s' = f_objs s.
Proof.
  intros E. apply add_task_stored in E. destruct E as (_ & x & _ & -> & _).
  destruct (lvl =? 0); [destruct (is_eq kd)|]; auto.
Qed.

Lemma quiet_step s o s' : quiet o -> after (step s o) = Some s' ->
  f_trans s' = f_trans s /\ f_objs s' = f_objs s.
Proof.
  intros Hq Ha. destruct o; simpl in Hq; try contradiction; cbn [step Formulation.step] in Ha; try rewrite lift_after in Ha.
  - unfold add_motion in Ha. destruct (args_ok w dur); [|simpl in Ha; injection Ha as <-; auto].
    destruct (add_task_cstr _ _ _ _ _ _) as [[s1 a]|] eqn:E; [|discriminate]. simpl in Ha; injection Ha as <-.
    exact (add_task_frame _ _ _ _ _ _ _ _ E).
  - unfold add_force in Ha. destruct (args_ok w dur); [|simpl in Ha; injection Ha as <-; auto].
    destruct (add_task_cstr _ _ _ _ _ _) as [[s1 a]|] eqn:E; [|discriminate]. simpl in Ha; injection Ha as <-.
    exact (add_task_frame _ _ _ _ _ _ _ _ E).
  - unfold add_act in Ha. destruct (args_ok w dur); [|simpl in Ha; injection Ha as <-; auto].
    destruct (add_task_cstr _ _ _ _ _ _) as [[s1 a]|] eqn:E; [|discriminate]. simpl in Ha; injection Ha as <-.
    exact (add_task_frame _ _ _ _ _ _ _ _ E).
  - unfold upd_task_weight in Ha. destruct (f_hqp s) as [|l0 ls]; [simpl in Ha; injection Ha as <-; auto|].
    destruct (upd_weight_levels _ _ _ _); simpl in Ha; injection Ha as <-; auto.
  - destruct (add_contact s o wreg wmot lvl) as [s1 b1|s1|] eqn:E.
    + simpl in Ha; injection Ha as <-.
      apply add_contact_spec in E. destruct E as (_ & x' & s2 & q1 & q2 & q3 & _ & Hr & H).
      apply resize_rdata in Hr. destruct Hr as (R1 & R2 & R3).
      cbv zeta in H. destruct H as (_ & _ & _ & ->). split.
      * transitivity (f_trans s2); [|exact R2]. destruct (lvl =? 0); reflexivity.
      * transitivity (f_objs s2); [|exact R3]. destruct (lvl =? 0); reflexivity.
    + exfalso. unfold add_contact in E. repeat match type of E with context [match ?x with _ => _ end] => destruct x end; discriminate.
    + discriminate.
  - unfold upd_contact_weights in Ha. destruct (f_hqp s) as [|l0 ls]; [simpl in Ha; injection Ha as <-; auto|].
    destruct (upd_cw_levels _ _ _ _ _ _ _) as [ls' b]; simpl in Ha; injection Ha as <-; auto.
  - simpl in Ha; injection Ha as <-; auto.
  - unfold remove_task in Ha.
    assert (G := erase_frame s name). assert (R := erase_rdata s name).
    destruct (erase_hqp s name) as [s1 b]. simpl fst in *. destruct G as (_ & _ & G3 & _). destruct R as [_ R2].
    destruct (assert_ dbg b); [|discriminate].
    destruct (take_task name (f_motions s1)) as [[tk r]|].
    { destruct (tl_prio tk =? 0); [destruct (tl_rows s1 tk) as [[kd m]|]; [destruct kd|]|];
      simpl in Ha; try discriminate; injection Ha as <-; auto. }
    destruct (take_task name (f_forces s1)) as [[tk r]|]; [simpl in Ha; injection Ha as <-; auto|].
    destruct (take_task name (f_acts s1)) as [[tk r]|].
    { destruct (tl_prio tk =? 0); [destruct (tl_rows s1 tk) as [[kd m]|]; [destruct kd|]|];
      simpl in Ha; try discriminate; injection Ha as <-; auto. }
    simpl in Ha; injection Ha as <-; auto.
  - unfold remove_contact in Ha. rewrite Hq in Ha.
    destruct (remove_contact_now dbg s name) as [s1 b1|s1|] eqn:E.
    + simpl in Ha; injection Ha as <-. apply remove_now_rdata in E. tauto.
    + exfalso. unfold remove_contact_now in E. repeat match type of E with context [match ?x with _ => _ end] => destruct x end; discriminate.
    + discriminate.
  - unfold remove_meas in Ha. destruct (take_meas name (f_meas s)); simpl in Ha; injection Ha as <-; auto.
  - unfold get in Ha. destruct (decode s x) as [s1|] eqn:E; [|discriminate].
    assert (F : f_trans s1 = f_trans s /\ f_objs s1 = f_objs s).
    { unfold decode in E. destruct (f_dec s); [injection E as <-; auto|]. repeat (ob E). injection E as <-. auto. }
    destruct g; simpl in Ha; try (injection Ha as <-; exact F).
    destruct (find_contact s1 name) as [cl|]; [destruct (vsegment _ _ _)|]; simpl in Ha; try discriminate;
      injection Ha as <-; exact F.
Qed.

End Trans.

(** ** Range of the bound, over the reals *)
Section TransR.
Open Scope R_scope.
Variable dbg : bool.
Implicit Types (s : fstate Rnum) (c : ctrans Rnum) (x : cobj Rnum) (o : fop Rnum) (t : Rnum) (e : env Rnum).
Local Notation step := (@Formulation.step Rnum dbg).

Lemma mix_between (t0 t1 f0 f1 t : R) : t0 <= t -> t <= t1 -> t0 < t1 ->
  Rmin f0 f1 <= f0 + (t - t0) / (t1 - t0) * (f1 - f0) <= Rmax f0 f1.
Proof.
  intros H1 H2 H3. set (a := (t - t0) / (t1 - t0)).
  assert (Ha : 0 <= a <= 1).
  { unfold a, Rdiv. split.
    - apply Rmult_le_pos; [lra|]. left. apply Rinv_0_lt_compat. lra.
    - apply Rmult_le_reg_r with (t1 - t0); [lra|]. rewrite Rmult_assoc, Rinv_l by lra. lra. }
  assert (M1 := Rmin_l f0 f1). assert (M2 := Rmin_r f0 f1).
  assert (M3 := Rmax_l f0 f1). assert (M4 := Rmax_r f0 f1).
  set (m := Rmin _ _) in *. set (M := Rmax _ _) in *.
  clearbody a m M. destruct Ha as [A0 A1].
  replace (f0 + a * (f1 - f0)) with ((1 - a) * f0 + a * f1) by ring.
  split.
  - replace m with ((1 - a) * m + a * m) by ring.
    apply Rplus_le_compat; apply Rmult_le_compat_l; lra.
  - replace M with ((1 - a) * M + a * M) by ring.
    apply Rplus_le_compat; apply Rmult_le_compat_l; lra.
Qed.
Lemma mix_mono (t0 t1 f0 f1 t t' : R) : t0 < t1 -> f1 <= f0 -> t <= t' ->
  f0 + (t' - t0) / (t1 - t0) * (f1 - f0) <= f0 + (t - t0) / (t1 - t0) * (f1 - f0).
Proof.
  intros H1 H2 H3. apply Rplus_le_compat_l.
  assert (P : (t - t0) / (t1 - t0) <= (t' - t0) / (t1 - t0)).
  { unfold Rdiv. apply Rmult_le_compat_r; [left; apply Rinv_0_lt_compat; lra|lra]. }
  set (a := (t - t0) / _) in *. set (b := (t' - t0) / _) in *. clearbody a b.
  assert (Q : 0 <= (b - a) * (f0 - f1)) by (apply Rmult_le_pos; lra). lra.
Qed.

Lemma interp_between c t : tr_t0 c <= t -> t <= tr_t1 c -> tr_t0 c < tr_t1 c ->
  Rmin (tr_f0 c) (tr_f1 c) <= interp c t <= Rmax (tr_f0 c) (tr_f1 c).
Proof. exact (mix_between (tr_t0 c) (tr_t1 c) (tr_f0 c) (tr_f1 c) t). Qed.
Lemma interp_start c : interp c (tr_t0 c) = tr_f0 c.
Proof. unfold interp. simpl. unfold Rdiv. ring. Qed.
Lemma interp_end c : tr_t0 c < tr_t1 c -> interp c (tr_t1 c) = tr_f1 c.
Proof. destruct c as [o a b f g]. simpl. intros H. unfold interp. simpl. field. lra. Qed.
Lemma interp_decreasing c t t' : tr_t0 c < tr_t1 c -> tr_f1 c <= tr_f0 c -> t <= t' ->
  interp c t' <= interp c t.
Proof. exact (mix_mono (tr_t0 c) (tr_t1 c) (tr_f0 c) (tr_f1 c) t t'). Qed.

(** The pending transitions of [s] can all run: positive duration, and both ends of
    the bound respect the minimum the contact checks against. *)
Definition pending_fits s : Prop :=
  forall c, In c (f_trans s) -> tr_t0 c < tr_t1 c /\
    exists x, nth_error (f_objs s) (tr_obj c) = Some x /\
      (co_checks x = true -> co_fmin x <= tr_f0 c /\ co_fmin x <= tr_f1 c).

(** Calls that keep it so: the force with which a removal starts is at least the
    minimum, the minimum of a contact being removed is not moved, and time does not
    run backwards past the start of a pending transition. *)
Definition calm s o : Prop :=
  match o with
  | OSetFMin ob _ => forall c, In c (f_trans s) -> tr_obj c <> ob
  | ORemContact n d => forall (c : clevel) x, In c (f_contacts s) -> nth_error (f_objs s) (cl_obj c) = Some x ->
      co_name x = n -> co_checks x = true -> co_fmin x <= start_bound s c x
  | OCompute t _ => forall c, In c (f_trans s) -> tr_t0 c <= t
  | _ => True
  end.

Lemma set_fmax_fits s ob f s' b : pending_fits s -> obj_set_fmax s ob f = Ret s' b -> pending_fits s'.
Proof.
  intros H E. destruct (set_fmax_form _ _ _ _ _ E) as (y & Ey & ->).
  intros c Hc. destruct (H c Hc) as (H1 & x & Ex & H2). split; [exact H1|].
  cbn [f_objs w_objs]. rewrite nth_lupd. destruct (ob =? tr_obj c)%nat eqn:Eo; [|eauto].
  apply Nat.eqb_eq in Eo. subst ob. rewrite Ex in *. injection Ey as <-. simpl.
  exists (set_fmax x f). split; [reflexivity|exact H2].
Qed.

Lemma incl_fits s s' : pending_fits s -> incl (f_trans s') (f_trans s) -> f_objs s' = f_objs s -> pending_fits s'.
Proof.
  intros H Hi Ho c Hc. destruct (H c (Hi c Hc)) as (H1 & x & Ex & H2). split; [exact H1|].
  exists x. rewrite Ho. auto.
Qed.

(** The transition loop does not throw. *)
Lemma run_fits todo : forall s dn (r : outcome (fstate Rnum) unit),
  pending_fits s -> f_trans s = dn ++ todo -> (forall c, In c todo -> tr_t0 c <= f_t s) ->
  run_transitions dbg s dn todo = r ->
  match r with Ret s' _ => pending_fits s' | Exc _ => False | Undef => True end.
Proof.
  induction todo as [|c todo IH]; intros s dn r HP Ht Hu <-; simpl; [exact HP|].
  destruct (assert_ dbg _); [|exact I].
  destruct (Rleb (f_t s) (tr_t1 c)) eqn:El.
  - match goal with |- context [obj_set_fmax s (tr_obj c) ?f] => assert (Ef : f = interp c (f_t s)) by reflexivity end.
    rewrite Ef. clear Ef.
    destruct (HP c) as (H1 & x & Ex & H2); [rewrite Ht; apply in_elt|].
    destruct (obj_set_fmax s (tr_obj c) (interp c (f_t s))) as [s1 b1|s1|] eqn:E1; [| |exact I].
    + destruct (set_fmax_form _ _ _ _ _ E1) as (y & Ey & E).
      apply (IH s1 (dn ++ [c]) _); auto.
      * eapply set_fmax_fits; eauto.
      * rewrite E. cbn [f_trans w_objs]. rewrite Ht, <- app_assoc. reflexivity.
      * intros d Hd. rewrite E. cbn [f_t w_objs]. apply Hu. right; exact Hd.
    + exfalso. unfold obj_set_fmax, cobj_at in E1. rewrite Ex in E1.
      destruct (co_checks x) eqn:Ec; [|discriminate]. destruct (H2 eq_refl) as [M0 M1]. simpl in E1.
      assert (B : Rmin (tr_f0 c) (tr_f1 c) <= interp c (f_t s)).
      { apply interp_between; [apply Hu; left; reflexivity|apply Rleb_true; exact El|exact H1]. }
      assert (B' : co_fmin x <= interp c (f_t s)) by (eapply Rle_trans; [|exact B]; apply Rmin_glb; assumption).
      apply Rleb_true in B'. simpl in B'. rewrite B' in E1. discriminate.
  - destruct (cobj_at s (tr_obj c)) as [x|]; [|exact I].
    destruct (remove_contact_now dbg s (co_name x)) as [s1 b1|s1|] eqn:E1; [| |exact I].
    + destruct (remove_now_rdata _ _ _ _ _ E1) as (_ & R2 & R3).
      apply (incl_fits s); auto. simpl. rewrite Ht. intros y Hy. apply in_app_or in Hy.
      apply in_or_app. destruct Hy; [left|right; right]; assumption.
    + unfold remove_contact_now in E1.
      repeat match type of E1 with context [match ?x with _ => _ end] => destruct x end; discriminate.
Qed.

Lemma fits_step s o s' : pending_fits s -> calm s o -> after (step s o) = Some s' -> pending_fits s'.
Proof.
  intros HP Hc Ha.
  assert (Q : quiet o -> pending_fits s').
  { intros Hq. destruct (quiet_step dbg s o s' Hq Ha) as [F1 F2].
    apply (incl_fits s); auto. rewrite F1. apply incl_refl. }
  destruct o; try (apply Q; exact I); cbn [step Formulation.step] in Ha; try rewrite lift_after in Ha; simpl in Hc.
  - (* new contact *) simpl in Ha. injection Ha as <-. intros d Hd. destruct (HP d Hd) as (H1 & x & Ex & H2).
    split; [exact H1|]. exists x. split; [|exact H2]. simpl. rewrite nth_error_app1; [exact Ex|].
    apply nth_error_Some. congruence.
  - (* setMin *) unfold obj_set_fmin, cobj_at in Ha.
    destruct (nth_error (f_objs s) o) as [y|] eqn:Ey; [|discriminate].
    destruct (_ || _); simpl in Ha; injection Ha as <-; [|exact HP].
    intros d Hd. destruct (HP d Hd) as (H1 & x & Ex & H2). split; [exact H1|]. exists x. split; [|exact H2].
    cbn [f_objs w_objs]. rewrite nth_lupd. destruct (o =? tr_obj d)%nat eqn:Eo; [|exact Ex].
    apply Nat.eqb_eq in Eo. exfalso. exact (Hc d Hd (eq_sym Eo)).
  - (* setMax *) destruct (obj_set_fmax s o f) as [s1 b1|s1|] eqn:E; [| |discriminate]; simpl in Ha; injection Ha as <-.
    + eapply set_fmax_fits; eauto.
    + unfold obj_set_fmax in E. destruct (cobj_at s o); [|discriminate].
      destruct (_ || _); [discriminate|]. injection E as <-. exact HP.
  - (* removal *) destruct (Rltb 0 dur) eqn:Ed; [|apply Q; exact Ed].
    unfold remove_contact in Ha. simpl in Ha. rewrite Ed in Ha. unfold find_contact in Ha.
    destruct (take_contact s name (f_contacts s)) as [[c r]|] eqn:T; [|simpl in Ha; injection Ha as <-; exact HP].
    apply take_contact_spec in T. destruct T as (l1 & l2 & T & _ & Hn & _).
    unfold cobj_at in Ha. destruct (nth_error (f_objs s) (cl_obj c)) as [x|] eqn:Ex; [|discriminate].
    simpl in Ha. injection Ha as <-. intros d Hd. cbn [f_trans w_trans] in Hd. apply in_app_or in Hd.
    destruct Hd as [Hd|[<-|[]]]; [exact (HP d Hd)|]. apply Rltb_true in Ed. simpl. split; [lra|].
    exists x. split; [exact Ex|]. intros Hk. split.
    + assert (Hi : In c (f_contacts s)) by (rewrite T; apply in_elt).
      assert (En : co_name x = name) by (unfold cl_name, cobj_at in Hn; rewrite Ex in Hn; exact Hn).
      assert (B := Hc c x Hi Ex En Hk).
      unfold start_bound, slot_force in B. unfold vsegment.
      destruct (cl_index c + co_nforce x <=? vlen (f_f s))%nat; exact B.
    + assert (P : 0 < Q2R (1 # 1000)) by (unfold Q2R; simpl; lra). lra.
  - (* computation *) unfold compute in Ha.
    assert (HP' : pending_fits (w_t s t)) by (apply (incl_fits s); auto; apply incl_refl).
    assert (RF := run_fits (f_trans s) (w_t s t) [] _ HP' eq_refl Hc eq_refl).
    change (f_trans (w_t s t)) with (f_trans s) in Ha.
    destruct (run_transitions dbg (w_t s t) [] (f_trans s)) as [s1 u|s1|] eqn:E; [|contradiction|discriminate].
    destruct (comp_fill s1 e) as [s2|] eqn:C; [|discriminate]. simpl in Ha. injection Ha as <-.
    destruct (comp_fill_trans _ _ _ C) as [C1 C2]. apply (incl_fits s1); auto. rewrite C1. apply incl_refl.
Qed.

(** C16: over every calm history the pending transitions stay runnable ... *)
Theorem fits_reach nv na M0 H0 s : reach step calm (init nv na M0 H0) s -> pending_fits s.
Proof.
  apply reach_inv; [intros c []|]. intros s1 o s2 H1 H2 H3. eapply fits_step; eauto.
Qed.

(** ... and a computation never throws. *)
Theorem compute_no_throw nv na M0 H0 s t e s' :
  reach step calm (init nv na M0 H0) s -> calm s (OCompute t e) -> step s (OCompute t e) <> Exc s'.
Proof.
  intros Hr Hc E. assert (HP := fits_reach _ _ _ _ _ Hr). simpl in Hc.
  assert (HP' : pending_fits (w_t s t)) by (apply (incl_fits s); auto; apply incl_refl).
  assert (RF := run_fits (f_trans s) (w_t s t) [] _ HP' eq_refl Hc eq_refl).
  cbn [step Formulation.step] in E. unfold compute in E.
  change (f_trans (w_t s t)) with (f_trans s) in E.
  destruct (run_transitions dbg (w_t s t) [] (f_trans s)) as [s1 u|s1|] eqn:R; [|contradiction|discriminate].
  destruct (comp_fill s1 e); discriminate.
Qed.

(** C16: the bound of a contact being removed, after a computation at time [t]. *)
Theorem transition_bound nv na M0 H0 s t e s' c x :
  reach step calm (init nv na M0 H0) s -> calm s (OCompute t e) ->
  Forall (live t) (f_trans s) -> step s (OCompute t e) = Ret s' OutUnit ->
  last_on (tr_obj c) (f_trans s) = Some c -> nth_error (f_objs s) (tr_obj c) = Some x ->
  exists x', nth_error (f_objs s') (tr_obj c) = Some x' /\
    co_fmax x' = tr_f0 c + (t - tr_t0 c) / (tr_t1 c - tr_t0 c) * (tr_f1 c - tr_f0 c) /\
    Rmin (tr_f0 c) (tr_f1 c) <= co_fmax x' <= Rmax (tr_f0 c) (tr_f1 c) /\
    co_fmin x' = co_fmin x /\ (co_checks x = true -> co_fmin x' <= co_fmax x').
Proof.
  intros Hr Hc HL Hs Hl Hx. assert (HP := fits_reach _ _ _ _ _ Hr).
  destruct (compute_bounds dbg s t e s' HL Hs) as (_ & _ & G).
  assert (G' := G (tr_obj c) x Hx). rewrite Hl in G'.
  destruct (last_on_in _ _ _ Hl) as [Hi _].
  destruct (HP c Hi) as (H1 & y & Ey & H2). rewrite Hx in Ey. injection Ey as <-.
  assert (Lt : t <= tr_t1 c) by (rewrite Forall_forall in HL; apply Rleb_true; exact (HL c Hi)).
  assert (B := interp_between c t (Hc c Hi) Lt H1).
  exists (set_fmax x (interp c t)). split; [exact G'|]. split; [reflexivity|]. split; [exact B|].
  split; [reflexivity|]. intros Hk. destruct (H2 Hk) as [M1 M2]. simpl.
  eapply Rle_trans; [|exact (proj1 B)]. apply Rmin_glb; assumption.
Qed.

End TransR.
