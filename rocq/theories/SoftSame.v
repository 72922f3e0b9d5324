(** Two formulations that hold the same tasks, contacts and measured forces, in any order: the
    motions of one are the motions of the other with the contact forces rearranged. *)
From Coq Require Import String List Arith Bool ZArith Lia Permutation Reals Lra.
From Verif Require Import Scalar Outcome Linalg Constraint Formulation ListUtil FormSpec FormDataSpec FormPhysSpec RSum FormInv FormInvB FormInvC FormHist FormPhys FormDecode SoftTasks SoftPlan.
Import ListNotations.
Open Scope string_scope.
Open Scope list_scope.
Open Scope nat_scope.
Local Notation rsum := (@nsum Rnum).

(** * Specification *)
Definition goal_of (t : tlevel) := (tl_task t, tl_name t, tl_prio t).
Record same_things (s q : fstate Rnum) : Prop := mkSame {
  st_nv : f_nv s = f_nv q;
  st_nu : f_nu s = f_nu q;
  st_con : Permutation (map cl_obj (f_contacts s)) (map cl_obj (f_contacts q));
  st_obj : forall c, In c (f_contacts s) -> nth_error (f_objs s) (cl_obj c) = nth_error (f_objs q) (cl_obj c);
  st_hard : forall c d, In c (f_contacts s) -> In d (f_contacts q) -> cl_obj c = cl_obj d -> (hard_motion s c <-> hard_motion q d);
  st_mot : Permutation (map goal_of (f_motions s)) (map goal_of (f_motions q));
  st_for : Permutation (map goal_of (f_forces s)) (map goal_of (f_forces q));
  st_act : Permutation (map goal_of (f_acts s)) (map goal_of (f_acts q));
  st_meas : Permutation (f_meas s) (f_meas q) }.
(** Every force task acts on the force of a contact that is present. *)
Definition forces_placed (s : fstate Rnum) (e : env Rnum) : Prop :=
  forall t, In t (f_forces s) -> e_assoc e (tl_task t) <> "" /\ exists c, In c (f_contacts s) /\ cl_name s c = e_assoc e (tl_task t).
(** The same accelerations, and the same force at each contact. *)
Definition same_motion (s q : fstate Rnum) (x z : nat -> R) : Prop :=
  (forall j, j < f_nv s -> x j = z j) /\
  (forall c d, In c (f_contacts s) -> In d (f_contacts q) -> cl_obj c = cl_obj d -> forall r, r < cl_nforce s c -> force_of s c x r = force_of q d z r).

(** * Proofs *)
Lemma same_sym s q : same_things s q -> same_things q s.
Proof.
  intros [A1 A2 A3 A4 A5 A6 A7 A8 A9]. constructor; try (symmetry; assumption).
  - intros d Hd. assert (I : In (cl_obj d) (map cl_obj (f_contacts s))) by (eapply Permutation_in; [symmetry; exact A3|apply in_map, Hd]).
    apply in_map_iff in I. destruct I as (c & Ec & Hc). rewrite <- Ec. symmetry. apply A4, Hc.
  - intros c d Hc Hd E. symmetry. apply A5; auto.
Qed.
Lemma lsum_keys {A B C} (k : A -> C) (k' : B -> C) (f : A -> R) (g : B -> R) l : forall l',
  Permutation (map k l) (map k' l') -> (forall a b, In a l -> In b l' -> k a = k' b -> f a = g b) -> lsum f l = lsum g l'.
Proof.
  induction l as [|a l IH]; intros l' P H.
  - simpl in P. apply Permutation_nil in P. destruct l'; [reflexivity|discriminate].
  - assert (I : In (k a) (map k' l')) by (eapply Permutation_in; [exact P|left; reflexivity]). apply in_map_iff in I. destruct I as (b & Eb & Hb).
    apply in_split in Hb. destruct Hb as (l1 & l2 & ->). rewrite lsum_app, !lsum_cons, (IH (l1 ++ l2)).
    + rewrite (H a b (or_introl eq_refl) (in_elt _ _ _) (eq_sym Eb)), lsum_app. lra.
    + rewrite map_app in P |- *. simpl in P. rewrite <- Eb in P. apply Permutation_cons_app_inv in P. exact P.
    + intros a' b' Ha Hb' E. apply H; auto; [right; exact Ha|]. apply in_app_iff in Hb'. apply in_app_iff. simpl. tauto.
Qed.
(** Values for consecutive blocks. *)
Lemma tile_fill {A} (ix nf : A -> nat) (F : A -> nat -> R) l : forall a b, tiles a (map (fun c => (ix c, nf c)) l) b ->
  exists z, forall d, In d l -> a <= ix d /\ forall r, r < nf d -> z (ix d + r) = F d r.
Proof.
  induction l as [|c l IH]; intros a b T; [exists (fun _ => 0%R); intros d []|]. simpl in T. destruct T as [Ec T]. destruct (IH _ _ T) as [z Hz].
  exists (fun k => if k <? a + nf c then F c (k - a) else z k). intros d [<-|Hd].
  - split; [lia|]. intros r Hr. replace (ix c + r <? a + nf c) with true by (symmetry; apply Nat.ltb_lt; lia). f_equal. lia.
  - destruct (Hz d Hd) as [L Z]. split; [lia|]. intros r Hr. replace (ix d + r <? a + nf c) with false by (symmetry; apply Nat.ltb_ge; lia). apply Z, Hr.
Qed.

Section Two.
Variables (s q : fstate Rnum) (e : env Rnum).
Hypotheses (As : invA s) (Bs : invB s) (Aq : invA q) (Bq : invB q) (Es : env_ok s e) (Eq : env_ok q e).
Hypothesis ST : same_things s q.

Lemma same_nforce c d : In c (f_contacts s) -> cl_obj c = cl_obj d -> cl_nforce s c = cl_nforce q d /\ cl_name s c = cl_name q d.
Proof. intros Hc E. unfold cl_nforce, cl_name, cobj_at. rewrite (st_obj _ _ ST c Hc), E. auto. Qed.
Lemma partner c : In c (f_contacts s) -> exists d, In d (f_contacts q) /\ cl_obj c = cl_obj d.
Proof.
  intros Hc. assert (I : In (cl_obj c) (map cl_obj (f_contacts q))) by (eapply Permutation_in; [exact (st_con _ _ ST)|apply in_map, Hc]).
  apply in_map_iff in I. destruct I as (d & Ed & Hd). eauto.
Qed.
(** Contacts are told apart by their object. *)
Lemma obj_inj c c' : In c (f_contacts s) -> In c' (f_contacts s) -> cl_obj c = cl_obj c' -> c = c'.
Proof.
  intros Hc Hc' E. apply (NoDup_map_inj (cl_name s) (f_contacts s)); auto; [apply contact_names_nodup; auto|]. unfold cl_name. rewrite E. reflexivity.
Qed.
Lemma arrange x : exists z, same_motion s q x z.
Proof.
  destruct (tile_fill cl_index (cl_nforce q) (fun d r => match find (fun c => cl_obj c =? cl_obj d) (f_contacts s) with Some c => force_of s c x r | None => 0%R end)
              (f_contacts q) 0 (f_k q) (ia_tile _ Aq)) as [z Hz].
  exists (fun k => if k <? f_nv s then x k else z (k - f_nv s)). split.
  - intros j Hj. replace (j <? f_nv s) with true by (symmetry; apply Nat.ltb_lt; exact Hj). reflexivity.
  - intros c d Hc Hd E r Hr. unfold force_of at 2. rewrite <- (st_nv _ _ ST). replace (f_nv s + cl_index d + r <? f_nv s) with false by (symmetry; apply Nat.ltb_ge; lia).
    replace (f_nv s + cl_index d + r - f_nv s) with (cl_index d + r) by lia. destruct (Hz d Hd) as [_ Z]. rewrite Z by (destruct (same_nforce c d Hc E); lia).
    destruct (find _ (f_contacts s)) as [c'|] eqn:Ef.
    + apply find_some in Ef. destruct Ef as [Hc' Ec]. apply Nat.eqb_eq in Ec. rewrite (obj_inj c c' Hc Hc') by congruence. reflexivity.
    + exfalso. assert (X := find_none _ _ Ef c Hc). apply Nat.eqb_neq in X. congruence.
Qed.

Variables (x z : nat -> R).
Hypothesis SM : same_motion s q x z.
Lemma same_size : size_of s x = size_of q z.
Proof.
  unfold size_of, nVar. rewrite !rsum_app, <- (st_nv _ _ ST). apply f_equal2.
  - apply rsum_ext. intros i Hi. destruct SM as [M _]. rewrite M by exact Hi. reflexivity.
  - rewrite (tiles_rsum _ _ _ _ (ia_tile _ As)), (tiles_rsum _ _ _ _ (ia_tile _ Aq)), !rsum_0. unfold slots. rewrite !lsum_map. apply f_equal.
    apply (lsum_keys cl_obj cl_obj); [apply (st_con _ _ ST)|]. intros c d Hc Hd E. cbn [fst snd]. destruct (same_nforce c d Hc E) as [N _]. rewrite <- N.
    apply rsum_ext. intros r Hr. destruct SM as [_ M]. assert (X := M c d Hc Hd E r Hr). unfold force_of in X. rewrite <- (st_nv _ _ ST), <- !Nat.add_assoc in X. rewrite X. reflexivity.
Qed.
Lemma same_torque i : needed_torque s e x i = needed_torque q e z i.
Proof.
  unfold needed_torque. rewrite <- (st_nv _ _ ST). apply f_equal2; [apply f_equal2; [apply f_equal2; [|reflexivity]|]|].
  - apply rsum_ext. intros j Hj. destruct SM as [M _]. rewrite M by exact Hj. reflexivity.
  - apply lsum_perm, (st_meas _ _ ST).
  - unfold contact_torque. apply (lsum_keys cl_obj cl_obj); [apply (st_con _ _ ST)|]. intros c d Hc Hd E. destruct (same_nforce c d Hc E) as [N _]. rewrite <- N, <- E.
    apply rsum_ext. intros r Hr. destruct SM as [_ M]. rewrite (M c d Hc Hd E r Hr). reflexivity.
Qed.
Lemma goal_in l l' t : Permutation (map goal_of l) (map goal_of l') -> In t l' -> exists t', In t' l /\ goal_of t' = goal_of t.
Proof.
  intros P Ht. assert (I : In (goal_of t) (map goal_of l)) by (eapply Permutation_in; [symmetry; exact P|apply in_map, Ht]).
  apply in_map_iff in I. destruct I as (t' & E & Ht'). eauto.
Qed.
Lemma eq_gap_ext (A : mat Rnum) b u v : (forall j, j < mcols A -> u j = v j) -> eq_gap A b u = eq_gap A b v.
Proof.
  intros H. unfold eq_gap. apply rsum_ext. intros i _. assert (X : rsum (mcols A) (fun j => mget A i j * u j)%R = rsum (mcols A) (fun j => mget A i j * v j)%R) by (apply rsum_ext; intros j Hj; rewrite H by exact Hj; reflexivity).
  rewrite X. reflexivity.
Qed.
(** Data of the contacts and tasks. *)
Lemma con_data c : In c (f_contacts s) -> mcols (fst (e_cmotion e (cl_obj c))) = f_nv s /\ mcols (fst (e_creg e (cl_obj c))) = cl_nforce s c /\
  forall lo hi, mcols (fst (fst (e_cforce e (cl_obj c) lo hi))) = cl_nforce s c.
Proof.
  intros Hc. destruct (contact_obj s As c Hc) as (o & Ho & Nf). destruct Es as (_ & _ & _ & E4 & _). specialize (E4 c o Hc Ho). unfold contact_data_ok in E4.
  destruct (e_cmotion e (cl_obj c)) as [Am bm]. destruct (e_creg e (cl_obj c)) as [Cm dm]. cbn [fst snd]. destruct E4 as (_ & X2 & _ & _ & _ & X6 & _ & X8 & _).
  rewrite Nf. split; [exact X2|]. split; [exact X8|]. intros lo hi. specialize (X6 lo hi). destruct (e_cforce e (cl_obj c) lo hi) as [[B lb] ub]. cbn [fst]. tauto.
Qed.
Hypotheses (Fs : forces_placed s e).
Lemma force_place t d : In t (f_forces s) -> In d (f_contacts q) -> cl_name q d = e_assoc e (tl_task t) ->
  exists c, In c (f_contacts s) /\ cl_obj c = cl_obj d /\ force_slot s (e_assoc e (tl_task t)) = (f_nv s + cl_index c, cl_nforce s c) /\
    force_slot q (e_assoc e (tl_task t)) = (f_nv q + cl_index d, cl_nforce q d).
Proof.
  intros Ht Hd Nd. destruct (Fs t Ht) as (Ne & c & Hc & Nc). exists c. split; [exact Hc|].
  assert (Ed : cl_obj c = cl_obj d).
  { destruct (partner c Hc) as (d' & Hd' & E'). destruct (same_nforce c d' Hc E') as [_ Nn]. rewrite E'.
    assert (d' = d) by (apply (NoDup_map_inj (cl_name q) (f_contacts q)); auto; [apply contact_names_nodup; auto|congruence]). subst. reflexivity. }
  split; [exact Ed|]. unfold force_slot. apply String.eqb_neq in Ne. rewrite Ne. split.
  - rewrite <- Nc, (find_contact_eq s c As Bs Hc). reflexivity.
  - rewrite <- Nd, (find_contact_eq q d Aq Bq Hd). reflexivity.
Qed.
(** Force tasks see the same force. *)
Lemma force_same t : In t (f_forces s) -> forall r, r < force_size s (e_assoc e (tl_task t)) ->
  x (fst (force_slot s (e_assoc e (tl_task t))) + r) = z (fst (force_slot q (e_assoc e (tl_task t))) + r).
Proof.
  intros Ht r Hr. destruct (Fs t Ht) as (Ne & c0 & Hc0 & Nc0). destruct (partner c0 Hc0) as (d & Hd & E0). destruct (same_nforce c0 d Hc0 E0) as [_ Nn].
  destruct (force_place t d Ht Hd) as (c & Hc & E & F1 & F2); [congruence|].
  assert (Sz : force_size s (e_assoc e (tl_task t)) = cl_nforce s c).
  { unfold force_size. rewrite F1. reflexivity. }
  rewrite F1, F2. cbn [fst]. destruct SM as [_ M]. apply (M c d Hc Hd E r). lia.
Qed.
Lemma task_shape t : In t (tasks s) -> exists kd r, announced s t kd r. Proof. apply task_announced, Bs. Qed.
Lemma in_tasks t : In t (f_motions s) \/ In t (f_forces s) \/ In t (f_acts s) -> In t (tasks s).
Proof. unfold tasks. rewrite !in_app_iff. tauto. Qed.
(** The hard constraints. *)
Lemma same_physical : physical s e x -> physical q e z.
Proof.
  intros [P1 P2 P3 P4 P5 P6]. destruct SM as [M1 M2]. constructor.
  - intros i Hi. rewrite <- same_torque. apply P1. rewrite (st_nu _ _ ST). exact Hi.
  - intros d Hd Hh. assert (I : In (cl_obj d) (map cl_obj (f_contacts s))) by (eapply Permutation_in; [symmetry; exact (st_con _ _ ST)|apply in_map, Hd]).
    apply in_map_iff in I. destruct I as (c & E & Hc). rewrite <- E. apply (st_hard _ _ ST c d Hc Hd E) in Hh. specialize (P2 c Hc Hh). destruct (con_data c Hc) as [C1 _].
    intros i Hi. rewrite <- (P2 i Hi). apply rsum_ext. intros j Hj. rewrite (M1 j) by lia. reflexivity.
  - intros d o Hd Ho. assert (I : In (cl_obj d) (map cl_obj (f_contacts s))) by (eapply Permutation_in; [symmetry; exact (st_con _ _ ST)|apply in_map, Hd]).
    apply in_map_iff in I. destruct I as (c & E & Hc). rewrite <- E in Ho |- *. rewrite <- (st_obj _ _ ST c Hc) in Ho. specialize (P3 c o Hc Ho). destruct (con_data c Hc) as (_ & _ & C3). specialize (C3 (co_fmin o) (co_fmax o)).
    destruct (e_cforce e (cl_obj c) (co_fmin o) (co_fmax o)) as [[B lb] ub]. cbn [fst] in C3. intros i Hi. specialize (P3 i Hi).
    assert (X : rsum (mcols B) (fun j => mget B i j * force_of s c x j)%R = rsum (mcols B) (fun j => mget B i j * force_of q d z j)%R).
    { apply rsum_ext. intros j Hj. rewrite (M2 c d Hc Hd E j) by lia. reflexivity. }
    rewrite <- X. exact P3.
  - intros t Ht Hp. destruct (goal_in _ _ t (st_mot _ _ ST) Ht) as (t' & Ht' & E). injection E as E1 E2 E3. rewrite <- E1. rewrite <- E3 in Hp. specialize (P4 t' Ht' Hp).
    destruct (task_shape t' (in_tasks t' (or_introl Ht'))) as (kd & r & Ha). destruct Es as (_ & _ & _ & _ & _ & E6 & _). destruct (E6 t' kd r Ht' Ha) as (_ & Cr & Cn).
    apply (sat_ext _ (f_nv s) x z r Cr Cn M1). exact P4.
  - intros t Ht Hp. destruct (goal_in _ _ t (st_for _ _ ST) Ht) as (t' & Ht' & E). injection E as E1 E2 E3. rewrite <- E1. rewrite <- E3 in Hp. specialize (P5 t' Ht' Hp).
    destruct (task_shape t' (in_tasks t' (or_intror (or_introl Ht')))) as (kd & r & Ha). destruct Es as (_ & _ & _ & _ & _ & _ & E7 & _). destruct (E7 t' kd r Ht' Ha) as (_ & Cr & Cn).
    refine (proj1 (sat_ext _ _ _ _ r Cr Cn _) P5). intros i Hi. apply force_same; assumption.
  - intros t Ht Hp. destruct (goal_in _ _ t (st_act _ _ ST) Ht) as (t' & Ht' & E). injection E as E1 E2 E3. rewrite <- E1. rewrite <- E3 in Hp. specialize (P6 t' Ht' Hp).
    destruct (task_shape t' (in_tasks t' (or_intror (or_intror Ht')))) as (kd & r & Ha). destruct Es as (_ & _ & _ & _ & _ & _ & _ & E8). destruct (E8 t' kd r Ht' Ha) as (_ & Cr & Cn).
    refine (proj1 (sat_ext _ _ _ _ r Cr Cn _) P6). intros i Hi. rewrite same_torque, (st_nu _ _ ST). reflexivity.
Qed.
(** The costs. *)
Lemma gap_ext c n u v : match c_kind c with CBound => True | _ => mcols (c_mat c) = n end -> (forall i, i < n -> u i = v i) -> gap c u = gap c v.
Proof. intros H Hu. unfold gap. destruct (c_kind c); try reflexivity. apply eq_gap_ext. intros j Hj. apply Hu. lia. Qed.
Lemma same_cost W : cost_with W s e x = cost_with W q e z.
Proof.
  destruct SM as [M1 M2]. unfold cost_with. apply f_equal2; [apply f_equal2; [apply f_equal2|]|].
  - apply (lsum_keys goal_of goal_of); [apply (st_mot _ _ ST)|]. intros t t' Ht Ht' E. injection E as E1 E2 E3. unfold motion_cost. rewrite <- E1, <- E2. apply f_equal.
    destruct (task_shape t (in_tasks t (or_introl Ht))) as (kd & r & Ha). destruct Es as (_ & _ & _ & _ & _ & E6 & _). destruct (E6 t kd r Ht Ha) as (_ & Cr & Cn).
    apply (gap_ext _ (f_nv s)); [|exact M1]. destruct (c_kind (e_task e (tl_task t))); auto.
  - apply (lsum_keys goal_of goal_of); [apply (st_for _ _ ST)|]. intros t t' Ht Ht' E. injection E as E1 E2 E3. unfold force_cost. rewrite <- E1, <- E2. apply f_equal.
    destruct (task_shape t (in_tasks t (or_intror (or_introl Ht)))) as (kd & r & Ha). destruct Es as (_ & _ & _ & _ & _ & _ & E7 & _). destruct (E7 t kd r Ht Ha) as (_ & Cr & Cn).
    apply (gap_ext _ (force_size s (e_assoc e (tl_task t)))); [destruct (c_kind (e_task e (tl_task t))); auto|]. intros i Hi. apply force_same; assumption.
  - apply (lsum_keys goal_of goal_of); [apply (st_act _ _ ST)|]. intros t t' Ht Ht' E. injection E as E1 E2 E3. unfold act_cost. rewrite <- E1, <- E2. apply f_equal.
    destruct (task_shape t (in_tasks t (or_intror (or_intror Ht)))) as (kd & r & Ha). destruct Es as (_ & _ & _ & _ & _ & _ & _ & E8). destruct (E8 t kd r Ht Ha) as (_ & Cr & Cn).
    apply (gap_ext _ (f_nv s - f_nu s)); [destruct (c_kind (e_task e (tl_task t))); auto|]. intros i Hi. rewrite same_torque, (st_nu _ _ ST). reflexivity.
  - apply (lsum_keys cl_obj cl_obj); [apply (st_con _ _ ST)|]. intros c d Hc Hd E. destruct (same_nforce c d Hc E) as [_ Nn]. destruct (con_data c Hc) as (C1 & C2 & _).
    unfold contact_cost. rewrite <- Nn, <- E. apply f_equal2; apply f_equal; apply eq_gap_ext; intros j Hj; [apply M1; lia|apply (M2 c d Hc Hd E); lia].
Qed.
End Two.
Lemma motion_sym s q x z : same_things s q -> same_motion s q x z -> same_motion q s z x.
Proof.
  intros ST [M1 M2]. split.
  - intros j Hj. symmetry. apply M1. rewrite (st_nv _ _ ST). exact Hj.
  - intros d c Hd Hc E r Hr. symmetry. apply M2; auto. destruct (same_nforce s q ST c d Hc (eq_sym E)) as [N _]. lia.
Qed.
Lemma placed_sym s q e : same_things s q -> forces_placed s e -> forces_placed q e.
Proof.
  intros ST F t Ht. destruct (goal_in _ _ t (st_for _ _ ST) Ht) as (t' & Ht' & E). injection E as E1 _ _. destruct (F t' Ht') as (Ne & c & Hc & Nc). rewrite <- E1. split; [exact Ne|].
  destruct (partner s q ST c Hc) as (d & Hd & Ed). exists d. split; [exact Hd|]. destruct (same_nforce s q ST c d Hc Ed) as [_ Nn]. congruence.
Qed.
