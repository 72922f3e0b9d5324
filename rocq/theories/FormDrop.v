(** removeFromHqpData as a public call: inverse-dynamics-formulation-acc-force.hpp:104,
    src/formulations/inverse-dynamics-formulation-acc-force.cpp:579-593, offered in Python by
    bindings/python/formulations/formulation.hpp:117 and 247-249. *)
From Coq Require Import String List Arith Bool ZArith QArith Lia Permutation.
From Verif Require Import Scalar Outcome Linalg Constraint Formulation ListUtil FormSpec FormInv FormInvB FormInvC FormOps FormSafe FormSafe2 FormMain.
Import ListNotations.
Open Scope string_scope.
Open Scope list_scope.
Open Scope nat_scope.

Section Drop.
Context {K : num}.
Variable dbg : bool.
Local Notation fstate := (fstate K).

(** cpp:579-593. *)
Definition remove_from_hqp (s : fstate) (n : string) : outcome fstate bool :=
  let '(s', b) := erase_hqp s n in Ret s' b.

(** ** Specification *)
(** A weighted constraint of the HQP data has this name. *)
Definition named_so (n : string) (e : K * option (constr K)) : bool :=
  match snd e with Some c => String.eqb (c_name c) n | None => false end.
Definition without (n : string) (q : list (list (K * option (constr K)))) : list (list (K * option (constr K))) :=
  map (filter (fun e => negb (named_so n e))) q.
(** Rows of the constraints of level 0 with this name. *)
Definition rows_named (p : ckind -> bool) (n : string) (s : fstate) : nat :=
  level_rows p (filter (named_so n) (nth 0 (hqp s) [])).

(** ** Proofs *)
Lemma drop_deref (s : fstate) n : valid s ->
  map (map (deref s)) (drop n (f_heap s) (f_hqp s)) = without n (hqp s).
Proof.
  intros V. unfold without, drop, hqp. rewrite !map_map. apply map_ext_in. intros l Hl.
  assert (Vl : forall e, In e l -> snd e < List.length (f_heap s)).
  { intros e He. unfold valid in V. rewrite Forall_forall in V. apply V. apply in_concat. eauto. }
  clear Hl. induction l as [|e l IH]; [reflexivity|]. cbn [filter map].
  assert (E : named_so n (deref s e) = String.eqb (name_at (f_heap s) (snd e)) n).
  { unfold named_so, deref, name_at. cbn [snd]. specialize (Vl e (or_introl eq_refl)).
    destruct (nth_error (f_heap s) (snd e)) eqn:N; [reflexivity|]. apply nth_error_None in N. lia. }
  rewrite E. destruct (String.eqb _ n); cbn [negb map]; rewrite IH by (intros; apply Vl; right; assumption); reflexivity.
Qed.

Lemma drop_form (s : fstate) n : invB s -> exists b, remove_from_hqp s n = Ret (w_hqp s (drop n (f_heap s) (f_hqp s))) b /\ (b = true <-> In n (hqp_names s)).
Proof.
  intros HB. unfold remove_from_hqp. assert (A := erase_hqp_drop s n (b_names _ HB)). assert (B := erase_hqp_found s n).
  destruct (erase_hqp s n) as [s' b]. cbn [fst snd] in A, B. exists b. rewrite A. split; [reflexivity|exact B].
Qed.

(** What a getter returns does not depend on the HQP data. *)
Lemma get_hqp (s : fstate) q g x : get (w_hqp s q) g x =
  match get s g x with Ret s' v => Ret (w_hqp s' q) v | Exc s' => Exc (w_hqp s' q) | Undef => Undef end.
Proof.
  unfold get.
  assert (D : decode (w_hqp s q) x = option_map (fun s' => w_hqp s' q) (decode s x)).
  { unfold decode. change (f_dec (w_hqp s q)) with (f_dec s). destruct (f_dec s); [reflexivity|].
    change (dyn_blocks (w_hqp s q)) with (dyn_blocks s). destruct (dyn_blocks s); [|reflexivity]. cbn [obind].
    change (f_nv (w_hqp s q)) with (f_nv s). change (f_k (w_hqp s q)) with (f_k s).
    destruct (vhead x (f_nv s)); [|reflexivity]. cbn [obind]. destruct (vtail x (f_k s)); [|reflexivity]. cbn [obind].
    destruct (mvec _ _); [|reflexivity]. cbn [obind]. destruct (vadd _ _); [|reflexivity]. cbn [obind].
    destruct (mvec _ _); [|reflexivity]. cbn [obind]. destruct (vsub _ _); reflexivity. }
  rewrite D. destruct (decode s x) as [s'|]; [|reflexivity]. cbn [option_map]. destruct g; try reflexivity.
  unfold find_contact. rewrite (take_contact_objs s' (w_hqp s' q)) by reflexivity.
  change (f_contacts (w_hqp s' q)) with (f_contacts s').
  destruct (take_contact s' name (f_contacts s')) as [[c r]|]; [|reflexivity].
  change (f_f (w_hqp s' q)) with (f_f s'). change (cl_nforce (w_hqp s' q) c) with (cl_nforce s' c).
  destruct (vsegment _ _ _); reflexivity.
Qed.

(** Filling the data does not depend on it either. *)
Lemma fold_hqp {B} (f f' : fstate -> B -> option fstate) q l : forall s,
  (forall s b, f' (w_hqp s q) b = option_map (fun s' => w_hqp s' q) (f s b)) ->
  ofold f' l (w_hqp s q) = option_map (fun s' => w_hqp s' q) (ofold f l s).
Proof.
  induction l as [|b l IH]; intros s H; [reflexivity|]. cbn [ofold]. rewrite H. destruct (f s b); [|reflexivity].
  cbn [obind option_map]. apply IH. exact H.
Qed.
Lemma contact_hqp e q (s : fstate) cl : comp_contact (w_hqp s q) e cl = option_map (fun s' => w_hqp s' q) (comp_contact s e cl).
Proof.
  unfold comp_contact. change (cobj_at (w_hqp s q) (cl_obj cl)) with (cobj_at s (cl_obj cl)).
  destruct (cobj_at s (cl_obj cl)) as [x|]; [|reflexivity]. cbn [obind]. destruct (e_cmotion e (cl_obj cl)) as [A b].
  change (f_heap (w_hqp s q)) with (f_heap s). change (f_nv (w_hqp s q)) with (f_nv s). change (f_Jc (w_hqp s q)) with (f_Jc s).
  destruct (on_heap _ (cl_motion cl) _); [|reflexivity]. cbn [obind]. destruct (mmul _ _); [|reflexivity]. cbn [obind].
  destruct (mset_rows _ _ _ _); [|reflexivity]. cbn [obind]. destruct (e_cforce _ _ _ _) as [[B lb] ub].
  destruct (on_heap _ (cl_force cl) _); [|reflexivity]. cbn [obind]. destruct (e_creg _ _) as [C d].
  destruct (on_heap _ (cl_reg cl) _); reflexivity.
Qed.
Lemma fill_hqp e q (s : fstate) : comp_fill (w_hqp s q) e = option_map (fun s' => w_hqp s' q) (comp_fill s e).
Proof.
  unfold comp_fill. change (w_dyn (w_hqp s q) (e_mass e) (e_nle e)) with (w_hqp (w_dyn s (e_mass e) (e_nle e)) q).
  set (s1 := w_dyn s (e_mass e) (e_nle e)). change (f_contacts (w_hqp s1 q)) with (f_contacts s1).
  rewrite (fold_hqp (fun s cl => comp_contact s e cl)) by (intros; apply contact_hqp).
  destruct (ofold _ (f_contacts s1) s1) as [s2|]; [|reflexivity]. cbn [option_map obind].
  change (comp_hfext (w_hqp s2 q) e) with (comp_hfext s2 e). destruct (comp_hfext s2 e) as [hf|]; [|reflexivity]. cbn [obind].
  change (w_hfext (w_hqp s2 q) hf) with (w_hqp (w_hfext s2 hf) q). set (s3 := w_hfext s2 hf).
  change (dyn_blocks (w_hqp s3 q)) with (dyn_blocks s3). destruct (dyn_blocks s3) as [d|]; [|reflexivity]. cbn [obind].
  assert (B : comp_base (w_hqp s3 q) d = option_map (fun s' => w_hqp s' q) (comp_base s3 d)).
  { unfold comp_base. change (f_heap (w_hqp s3 q)) with (f_heap s3). change (f_base (w_hqp s3 q)) with (f_base s3).
    change (f_nv (w_hqp s3 q)) with (f_nv s3). change (f_k (w_hqp s3 q)) with (f_k s3).
    destruct (on_heap _ (f_base s3) _); reflexivity. }
  rewrite B. destruct (comp_base s3 d) as [s4|]; [|reflexivity]. cbn [option_map obind].
  change (f_motions (w_hqp s4 q)) with (f_motions s4).
  rewrite (fold_hqp (comp_motion e)).
  2:{ intros z t. unfold comp_motion. change (f_heap (w_hqp z q)) with (f_heap z). change (f_nv (w_hqp z q)) with (f_nv z).
      destruct (on_heap _ (tl_cstr t) _); reflexivity. }
  destruct (ofold _ (f_motions s4) s4) as [s5|]; [|reflexivity]. cbn [option_map obind].
  change (f_forces (w_hqp s5 q)) with (f_forces s5). rewrite (fold_hqp (comp_force e)).
  2:{ intros z t. unfold comp_force. rewrite (force_slot_eq z (w_hqp z q)) by reflexivity.
      destruct (force_slot z _) as [i0 sz]. change (f_heap (w_hqp z q)) with (f_heap z).
      destruct (on_heap _ (tl_cstr t) _); reflexivity. }
  destruct (ofold _ (f_forces s5) s5) as [s6|]; [|reflexivity]. cbn [option_map obind].
  change (f_acts (w_hqp s6 q)) with (f_acts s6). rewrite (fold_hqp (comp_act e d)).
  2:{ intros z t. unfold comp_act. change (f_heap (w_hqp z q)) with (f_heap z). change (f_nv (w_hqp z q)) with (f_nv z).
      change (f_k (w_hqp z q)) with (f_k z). destruct (on_heap _ (tl_cstr t) _); reflexivity. }
  destruct (ofold _ (f_acts s6) s6) as [s7|]; reflexivity.
Qed.
(** Transitions that are not over do not touch the HQP data. *)
Lemma run_hqp q : forall rest done (s : fstate), Forall (fun c => (f_t s <=? tr_t1 c)%num = true) rest ->
  run_transitions dbg (w_hqp s q) done rest =
  match run_transitions dbg s done rest with Ret s' v => Ret (w_hqp s' q) v | Exc s' => Exc (w_hqp s' q) | Undef => Undef end.
Proof.
  induction rest as [|c rest IH]; intros done s F; [reflexivity|]. inversion F as [|? ? F1 F2]; subst. cbn [run_transitions].
  change (f_t (w_hqp s q)) with (f_t s). destruct (assert_ dbg (tr_t0 c <=? f_t s)%num); [|reflexivity].
  rewrite F1. unfold obj_set_fmax. change (cobj_at (w_hqp s q) (tr_obj c)) with (cobj_at s (tr_obj c)).
  destruct (cobj_at s (tr_obj c)) as [x|]; [|reflexivity]. destruct (_ || _); [|reflexivity].
  change (w_objs (w_hqp s q) ?l) with (w_hqp (w_objs s l) q). apply IH. exact F2.
Qed.
Lemma compute_hqp q (s : fstate) t e : Forall (fun c => (t <=? tr_t1 c)%num = true) (f_trans s) ->
  compute dbg (w_hqp s q) t e =
  match compute dbg s t e with Ret s' v => Ret (w_hqp s' q) v | Exc s' => Exc (w_hqp s' q) | Undef => Undef end.
Proof.
  intros F. unfold compute. change (w_t (w_hqp s q) t) with (w_hqp (w_t s t) q). change (f_trans (w_hqp (w_t s t) q)) with (f_trans (w_t s t)).
  rewrite run_hqp by exact F. destruct (run_transitions dbg (w_t s t) [] (f_trans (w_t s t))) as [s' u| |]; try reflexivity.
  rewrite fill_hqp. destruct (comp_fill s' e); reflexivity.
Qed.

(** ** Theorems *)
Lemma drop_effect nv na (M0 : mat K) H0 s n : reach (step dbg) (named) (init nv na M0 H0) s ->
  exists s' b, remove_from_hqp s n = Ret s' b /\ (b = true <-> In n (hqp_names s)) /\
    hqp s' = without n (hqp s) /\ nVar s' = nVar s /\ nEq s' = nEq s /\ nIn s' = nIn s /\ slots s' = slots s /\
    contact_names s' = contact_names s /\
    (forall g x, match get s g x with
                 | Ret s1 v => exists s2, get s' g x = Ret s2 v | Exc s1 => exists s2, get s' g x = Exc s2 | Undef => get s' g x = Undef end).
Proof.
  intros R. destruct (named_AB dbg nv na M0 H0 s R) as (HA & HB). destruct (drop_form s n HB) as (b & E & Eb).
  exists (w_hqp s (drop n (f_heap s) (f_hqp s))), b. split; [exact E|]. split; [exact Eb|].
  split; [exact (drop_deref s n (invA_valid _ HA))|]. split; [reflexivity|]. split; [reflexivity|]. split; [reflexivity|].
  split; [reflexivity|]. split; [reflexivity|].
  intros g x. rewrite get_hqp. destruct (get s g x); eauto.
Qed.

(** Computing after the call gives the data that would have been there, without the
    constraint. *)
Lemma run_same : forall rest done (s s' : fstate) u, Forall (fun c => (f_t s <=? tr_t1 c)%num = true) rest ->
  run_transitions dbg s done rest = Ret s' u -> f_hqp s' = f_hqp s /\ f_heap s' = f_heap s.
Proof.
  induction rest as [|c rest IH]; intros done s s' u F; cbn [run_transitions]; [intros H; injection H as <- _; auto|].
  inversion F as [|? ? F1 F2]; subst. destruct (assert_ dbg (tr_t0 c <=? f_t s)%num); [|discriminate]. rewrite F1.
  unfold obj_set_fmax. destruct (cobj_at s (tr_obj c)) as [x|]; [|discriminate]. destruct (_ || _); [|discriminate].
  intros H. apply IH in H; [exact H|exact F2].
Qed.
Lemma drop_compute nv na (M0 : mat K) H0 (s : fstate) n s' b t e : reach (step dbg) named (init nv na M0 H0) s ->
  remove_from_hqp s n = Ret s' b -> Forall (fun c => (t <=? tr_t1 c)%num = true) (f_trans s) ->
  match compute dbg s t e with
  | Ret s1 _ => exists s2, compute dbg s' t e = Ret s2 tt /\ hqp s2 = without n (hqp s1) /\
                           nVar s2 = nVar s1 /\ nEq s2 = nEq s1 /\ nIn s2 = nIn s1
  | Exc _ => exists s2, compute dbg s' t e = Exc s2
  | Undef => compute dbg s' t e = Undef
  end.
Proof.
  intros R E F. destruct (named_AB dbg nv na M0 H0 s R) as (HA & HB). destruct (drop_form s n HB) as (b' & E' & _).
  rewrite E in E'. injection E' as -> <-. rewrite compute_hqp by exact F.
  destruct (compute dbg s t e) as [s1 u|s1|] eqn:C; eauto. destruct u. eexists. split; [reflexivity|].
  split; [|split; [reflexivity|split; reflexivity]].
  assert (R1 : reach (step dbg) named (init nv na M0 H0) s1).
  { eapply reach_step with (o := OCompute t e); [exact R|exact I|]. cbn [step]. rewrite C. reflexivity. }
  destruct (named_AB dbg nv na M0 H0 s1 R1) as (HA1 & _).
  unfold compute in C. destruct (run_transitions dbg (w_t s t) [] (f_trans (w_t s t))) as [sa ua| |] eqn:Er; try discriminate.
  destruct (comp_fill sa e) as [sb|] eqn:Ef; [|discriminate]. injection C as <-.
  destruct (run_same (f_trans s) [] (w_t s t) sa ua F Er) as (Q1 & Q2). assert (Sm := comp_fill_same _ _ _ Ef).
  rewrite <- (drop_deref sb n (invA_valid _ HA1)).
  assert (Eq : drop n (f_heap sb) (f_hqp sb) = drop n (f_heap s) (f_hqp s)).
  { rewrite (sm_hqp _ _ Sm), Q1. unfold drop. cbn [f_hqp w_t]. apply map_ext. intros l. apply filter_ext. intros p.
    f_equal. f_equal. change (f_heap s) with (f_heap (w_t s t)). rewrite <- Q2.
    apply name_at_shape. exact (sm_sh _ _ Sm). }
  rewrite Eq. reflexivity.
Qed.

(** The counters are not changed. *)
Lemma rows_split p n (l : list (K * option (constr K))) :
  level_rows p l = level_rows p (filter (fun e => negb (named_so n e)) l) + level_rows p (filter (named_so n) l).
Proof.
  unfold level_rows. induction l as [|e l IH]; [reflexivity|]. cbn [map filter].
  destruct (named_so n e); cbn [negb map]; cbn [sum_nat fold_right] in *; unfold sum_nat in *; lia.
Qed.
Lemma without_level0 n (q : list (list (K * option (constr K)))) : nth 0 (without n q) [] = filter (fun e => negb (named_so n e)) (nth 0 q []).
Proof. destruct q; reflexivity. Qed.
Lemma drop_counters nv na (M0 : mat K) H0 (s : fstate) n s' b :
  reach (step dbg) (fun s o => names_ok s o /\ no_hard_force_removal s o) (init nv na M0 H0) s ->
  remove_from_hqp s n = Ret s' b ->
  nEq s' = (Z.of_nat (hard_eq_rows s') + Z.of_nat (rows_named is_eq n s))%Z /\
  nIn s' = (Z.of_nat (hard_in_rows s') + Z.of_nat (rows_named not_eq n s))%Z.
Proof.
  intros R E. destruct (counters dbg nv na M0 H0 s R) as (C1 & C2).
  assert (R' : reach (step dbg) named (init nv na M0 H0) s).
  { clear -R. induction R as [|? o ? ? IH [P _] A]; [constructor|]. eapply reach_step; [exact IH|exact P|exact A]. }
  destruct (drop_effect nv na M0 H0 s n R') as (s1 & b1 & E1 & _ & Hq & _ & He & Hi & _).
  rewrite E in E1. injection E1 as <- <-. rewrite He, Hi, C1, C2. unfold hard_eq_rows, hard_in_rows, rows_named.
  rewrite Hq, without_level0, (rows_split is_eq n (nth 0 (hqp s) [])), (rows_split not_eq n (nth 0 (hqp s) [])). lia.
Qed.

(** ** Removing the task or the contact afterwards *)
Lemma erased_again (s : fstate) n : invB s -> erase_hqp (w_hqp s (drop n (f_heap s) (f_hqp s))) n = (w_hqp s (drop n (f_heap s) (f_hqp s)), false).
Proof.
  intros HB. set (s1 := w_hqp s _).
  assert (N1 : NoDup (hqp_names s1)) by (apply drop_names; exact (b_names _ HB)).
  assert (A := erase_hqp_drop s1 n N1). assert (B := erase_hqp_found s1 n).
  destruct (erase_hqp s1 n) as [s2 b]. cbn [fst snd] in A, B. f_equal.
  - rewrite A. unfold s1, drop. cbn [f_heap f_hqp w_hqp]. rewrite map_map.
    transitivity (w_hqp s (map (fun l => filter (fun e : K * nat => negb (String.eqb (name_at (f_heap s) (snd e)) n)) (filter (fun e : K * nat => negb (String.eqb (name_at (f_heap s) (snd e)) n)) l)) (f_hqp s))); [reflexivity|].
    f_equal. apply map_ext. intros l. rewrite filter_filter. apply filter_ext. intros e. destruct (negb _); reflexivity.
  - destruct b; [|reflexivity]. exfalso. destruct B as (B & _). specialize (B eq_refl). unfold hqp_names, s1, drop in B.
    cbn [f_heap f_hqp w_hqp] in B. apply in_map_iff in B. destruct B as (e & En & He). apply in_concat in He.
    destruct He as (l & Hl & He). apply in_map_iff in Hl. destruct Hl as (l' & <- & _). apply filter_In in He. destruct He as (_ & He).
    rewrite En, String.eqb_refl in He. discriminate.
Qed.
End Drop.

Section Later.
Context {K : num}.
Local Notation fstate := (fstate K).

Lemma drop_remove_task dbg nv na (M0 : mat K) H0 (s : fstate) n s' b :
  reach (step dbg) named (init nv na M0 H0) s -> remove_from_hqp s n = Ret s' b ->
  remove_task true s' n = Undef /\ remove_task false s' n = remove_task false s n.
Proof.
  intros R E. destruct (named_AB dbg nv na M0 H0 s R) as (HA & HB). assert (A := erased_again s n HB).
  destruct (drop_form s n HB) as (b' & E' & _). rewrite E in E'. injection E' as -> <-.
  unfold remove_task. rewrite A. split; [reflexivity|].
  assert (B := erase_hqp_drop s n (b_names _ HB)). destruct (erase_hqp s n) as [s2 b2]. cbn [fst] in B. subst s2. reflexivity.
Qed.

(** Immediate removal of a contact in a release build, after the three erasures; cpp:534-565. *)
Definition finish (name : string) (im : bool) (s : fstate) (bs : bool * bool * bool) : outcome fstate bool :=
  match (do sb <-
           match take_contact s name (f_contacts s) with
           | None => Some (s, false)
           | Some (c, rest) =>
               let s := w_k s (f_k s - cl_nforce s c) in
               do s <- (if im then
                          do mc <- nth_error (f_heap s) (cl_motion c);
                          do r <- crows mc;
                          Some (w_eq s (f_eq s - Z.of_nat r)%Z)
                        else Some s);
               do fc <- nth_error (f_heap s) (cl_force c);
               do r <- crows fc;
               let s := w_in s (f_in s - Z.of_nat r)%Z in
               let s := w_contacts s rest in
               do s <- resize_hqp s;
               Some (s, true)
           end;
         let '(s, found) := sb in
         Some (w_contacts s (reindex s 0 (f_contacts s)), found && fst (fst bs) && snd (fst bs) && snd bs)) with
  | Some (s', b) => Ret s' b
  | None => Undef
  end.
Definition prio0 (s : fstate) (n : string) : bool :=
  match task_priority (f_heap s) n (f_hqp s) with Some p => p =? 0 | None => false end.
Lemma now_form (s : fstate) n : exists bs, remove_contact_now false s n = finish n (prio0 s (n ++ "_motion_task")) (erase3 s n) bs /\
  fst (fst bs) = snd (erase_hqp s (n ++ "_motion_task")) /\
  snd (fst bs) = snd (erase_hqp (fst (erase_hqp s (n ++ "_motion_task"))) (n ++ "_force_constraint")) /\
  snd bs = snd (erase_hqp (fst (erase_hqp (fst (erase_hqp s (n ++ "_motion_task"))) (n ++ "_force_constraint"))) (n ++ "_force_reg_task")).
Proof.
  eexists (_, _, _). split; [|split; [|split]; reflexivity]. unfold remove_contact_now, finish, erase3, prio0. cbn [fst snd].
  destruct (task_priority _ _ _) as [p|]; cbn [assert_ obind];
    destruct (erase_hqp s (n ++ "_motion_task")) as [sa ba]; cbn [fst snd];
    destruct (erase_hqp sa (n ++ "_force_constraint")) as [sb bb]; cbn [fst snd];
    destruct (erase_hqp sb (n ++ "_force_reg_task")) as [sc bc]; reflexivity.
Qed.

(** The three names of a contact. *)
Definition of_contact (c n : string) : Prop :=
  n = (c ++ "_motion_task")%string \/ n = (c ++ "_force_constraint")%string \/ n = (c ++ "_force_reg_task")%string.

Lemma drop_erase3 (s : fstate) c n : invB s -> of_contact c n ->
  erase3 (w_hqp s (drop n (f_heap s) (f_hqp s))) c = erase3 s c.
Proof.
  intros HB Hn. rewrite (erase3_drop s c (b_names _ HB)).
  rewrite erase3_drop by (apply drop_names; exact (b_names _ HB)).
  cbn [f_hqp w_hqp]. unfold drop. rewrite map_map.
  match goal with |- w_hqp (w_hqp s ?a) ?b = _ => transitivity (w_hqp s b); [reflexivity|] end.
  f_equal. apply map_ext. intros l. rewrite filter_filter. apply filter_ext. intros e.
  unfold nm, not3. cbn [f_heap w_hqp].
  destruct Hn as [->|[->| ->]]; destruct (String.eqb _ (c ++ "_motion_task")), (String.eqb _ (c ++ "_force_constraint")), (String.eqb _ (c ++ "_force_reg_task")); reflexivity.
Qed.

Lemma absent_drop (s : fstate) n m : invB s -> n = m -> In m (hqp_names (w_hqp s (drop n (f_heap s) (f_hqp s)))) -> False.
Proof.
  intros HB -> I. assert (A := erased_again s m HB). apply erase_hqp_found in I. rewrite A in I. discriminate.
Qed.
Lemma erase_sub (s : fstate) a n : NoDup (hqp_names s) -> In n (hqp_names (fst (erase_hqp s a))) -> In n (hqp_names s).
Proof.
  intros N. rewrite erase_hqp_drop by exact N. unfold hqp_names, drop. cbn [f_heap f_hqp w_hqp]. rewrite !in_map_iff.
  intros (e & En & He). exists e. split; [exact En|]. apply in_concat in He. destruct He as (l & Hl & He).
  apply in_map_iff in Hl. destruct Hl as (l' & <- & Hl). apply filter_In in He. apply in_concat. exists l'. tauto.
Qed.
Lemma erase_nodup (s : fstate) a : NoDup (hqp_names s) -> NoDup (hqp_names (fst (erase_hqp s a))).
Proof. intros N. rewrite erase_hqp_drop by exact N. apply drop_names. exact N. Qed.

Lemma level_has_absent h n (ls : list (list (K * nat))) :
  ~ In n (map (fun e => name_at h (snd e)) (concat ls)) -> task_priority h n ls = None.
Proof.
  induction ls as [|l ls IH]; intros H; [reflexivity|]. cbn [task_priority]. cbn [concat] in H. rewrite map_app, in_app_iff in H.
  destruct (level_has h n l) eqn:L; [|rewrite IH by tauto; reflexivity].
  exfalso. apply H. left. unfold level_has in L. apply existsb_exists in L. destruct L as (e & He & E). apply String.eqb_eq in E.
  apply in_map_iff. eauto.
Qed.

Lemma resize_eq (s : fstate) z : resize_hqp (w_eq s z) = option_map (fun s' => w_eq s' z) (resize_hqp s).
Proof.
  unfold resize_hqp. cbn [f_heap f_base f_nv f_nu f_k f_hqp w_eq]. destruct (nth_error (f_heap s) (f_base s)); [|reflexivity]. cbn [obind].
  destruct (cresize _ _ _); [|reflexivity]. cbn [obind]. destruct (ofold _ _ _); reflexivity.
Qed.
Lemma reindex_eq (s : fstate) z l : forall k, reindex (w_eq s z) k l = reindex s k l.
Proof. induction l as [|c l IH]; intros k; [reflexivity|]. cbn [reindex]. rewrite IH. reflexivity. Qed.
Lemma finish_flags n im (s : fstate) bs bs' s2 b : finish n im s bs = Ret s2 b -> exists b', finish n im s bs' = Ret s2 b' /\
  (fst (fst bs') && snd (fst bs') && snd bs' = false -> b' = false).
Proof.
  unfold finish. match goal with |- context [obind ?A _] => destruct A as [[z f]|] end; [|discriminate]. cbn [obind].
  intros H. injection H as <- _. eexists. split; [reflexivity|]. rewrite <- !andb_assoc. intros ->. apply andb_false_r.
Qed.
Lemma finish_motion n (s : fstate) bs s2 b : finish n true s bs = Ret s2 b ->
  finish n false s bs = Ret (w_eq s2 (f_eq s)) b.
Proof.
  unfold finish. destruct (take_contact s n (f_contacts s)) as [[c rest]|].
  - cbv zeta. cbn [f_heap w_k]. destruct (nth_error (f_heap s) (cl_motion c)) as [mc|]; [|discriminate]. cbn [obind].
    destruct (crows mc) as [r|]; [|discriminate]. cbn [obind f_heap w_eq w_k].
    destruct (nth_error (f_heap s) (cl_force c)) as [fc|]; [|discriminate]. cbn [obind]. destruct (crows fc) as [r'|]; [|discriminate].
    cbn [obind]. set (s0 := w_k s (f_k s - cl_nforce s c)).
    change (w_contacts (w_in (w_eq s0 (f_eq s0 - Z.of_nat r)) (f_in (w_eq s0 (f_eq s0 - Z.of_nat r)) - Z.of_nat r')) rest)
      with (w_eq (w_contacts (w_in s0 (f_in s0 - Z.of_nat r')) rest) (f_eq s0 - Z.of_nat r)).
    rewrite resize_eq.
    change (resize_hqp (w_contacts (w_in s0 (f_in s0 - Z.of_nat r')) rest)) with (resize_hqp (w_eq (w_contacts (w_in s0 (f_in s0 - Z.of_nat r')) rest) (f_eq s))).
    rewrite resize_eq. destruct (resize_hqp (w_contacts _ rest)) as [s4|]; [|discriminate]. cbn [obind option_map].
    intros H. injection H as <- <-. rewrite !reindex_eq. reflexivity.
  - cbn [obind]. intros H. injection H as <- <-. destruct s; reflexivity.
Qed.

Lemma finish_eq n (s : fstate) bs s2 b : finish n false s bs = Ret s2 b -> f_eq s2 = f_eq s.
Proof.
  intros Hr. unfold finish in Hr.
  destruct (take_contact s n _) as [[d rest]|]; cbn [obind] in Hr; [|injection Hr as <- _; reflexivity].
  destruct (nth_error _ (cl_force d)); [|discriminate]. cbn [obind] in Hr. destruct (crows _); [|discriminate]. cbn [obind] in Hr.
  destruct (resize_hqp _) as [s4|] eqn:Z; [|discriminate]. cbn [obind] in Hr. injection Hr as <- _.
  unfold resize_hqp in Z. destruct (nth_error _ _) in Z; [|discriminate]. cbn [obind] in Z.
  destruct (cresize _ _ _) in Z; [|discriminate]. cbn [obind] in Z. destruct (ofold _ _ _) in Z; [|discriminate]. cbn [obind] in Z.
  injection Z as <-. reflexivity.
Qed.
(** One of the three erasures finding nothing. *)
Lemma some_missing (s1 : fstate) c n bs1 : NoDup (hqp_names s1) -> of_contact c n -> ~ In n (hqp_names s1) ->
  fst (fst bs1) = snd (erase_hqp s1 (c ++ "_motion_task")) ->
  snd (fst bs1) = snd (erase_hqp (fst (erase_hqp s1 (c ++ "_motion_task"))) (c ++ "_force_constraint")) ->
  snd bs1 = snd (erase_hqp (fst (erase_hqp (fst (erase_hqp s1 (c ++ "_motion_task"))) (c ++ "_force_constraint"))) (c ++ "_force_reg_task")) ->
  fst (fst bs1) && snd (fst bs1) && snd bs1 = false.
Proof.
  intros N1 Hn Ab P1 P2 P3.
  destruct (fst (fst bs1) && snd (fst bs1) && snd bs1) eqn:Z; [|reflexivity]. exfalso.
  apply andb_true_iff in Z. destruct Z as (Z & Z3). apply andb_true_iff in Z. destruct Z as (Z1 & Z2).
  rewrite P1 in Z1. rewrite P2 in Z2. rewrite P3 in Z3. apply erase_hqp_found in Z1, Z2, Z3.
  apply erase_sub in Z2; [|exact N1]. apply erase_sub in Z3; [|apply erase_nodup; exact N1]. apply erase_sub in Z3; [|exact N1].
  destruct Hn as [->|[->| ->]]; auto.
Qed.
Lemma missing_debug (s1 : fstate) c bs1 :
  fst (fst bs1) = snd (erase_hqp s1 (c ++ "_motion_task")) ->
  snd (fst bs1) = snd (erase_hqp (fst (erase_hqp s1 (c ++ "_motion_task"))) (c ++ "_force_constraint")) ->
  snd bs1 = snd (erase_hqp (fst (erase_hqp (fst (erase_hqp s1 (c ++ "_motion_task"))) (c ++ "_force_constraint"))) (c ++ "_force_reg_task")) ->
  fst (fst bs1) && snd (fst bs1) && snd bs1 = false -> remove_contact_now true s1 c = Undef.
Proof.
  intros P1 P2 P3 Bs. unfold remove_contact_now.
  destruct (task_priority (f_heap s1) (c ++ "_motion_task") (f_hqp s1)) as [p|]; [|reflexivity]. cbn [obind assert_].
  destruct (erase_hqp s1 (c ++ "_motion_task")) as [sa ba] eqn:Ea. cbn [fst snd] in P1, P2, P3.
  destruct ba; [|reflexivity]. cbn [assert_ guard obind].
  destruct (erase_hqp sa (c ++ "_force_constraint")) as [sb bb] eqn:Eb. cbn [fst snd] in P2, P3.
  destruct bb; [|reflexivity]. cbn [assert_ guard obind].
  destruct (erase_hqp sb (c ++ "_force_reg_task")) as [sc bc] eqn:Ec. cbn [fst snd] in P3.
  destruct bc; [|reflexivity]. rewrite P1, P2, P3 in Bs. discriminate.
Qed.
Lemma prio_drop h m n (ls : list (list (K * nat))) : n <> m -> task_priority h m (drop n h ls) = task_priority h m ls.
Proof.
  intros Em. unfold drop. induction ls as [|l ls IH]; [reflexivity|]. cbn [map task_priority]. rewrite IH.
  replace (level_has h m (filter (fun e : K * nat => negb (String.eqb (name_at h (snd e)) n)) l)) with (level_has h m l); [reflexivity|].
  unfold level_has. induction l as [|e l IHl]; [reflexivity|]. cbn [existsb filter].
  destruct (String.eqb_spec (name_at h (snd e)) n) as [En|En]; cbn [negb existsb].
  - rewrite IHl. rewrite En. destruct (String.eqb_spec n m); [contradiction|reflexivity].
  - rewrite IHl. reflexivity.
Qed.

(** What is left to compare once the three constraints are gone from both. *)
Lemma finish_dropped (s s1 : fstate) c n bs bs1 s2 b2 m : m = (c ++ "_motion_task")%string ->
  ((n = m) -> prio0 s1 m = false) -> ((n <> m) -> prio0 s1 m = prio0 s m) ->
  fst (fst bs1) && snd (fst bs1) && snd bs1 = false ->
  finish c (prio0 s m) (erase3 s c) bs = Ret s2 b2 ->
  exists s3, finish c (prio0 s1 m) (erase3 s c) bs1 = Ret s3 false /\
    hqp s3 = hqp s2 /\ nVar s3 = nVar s2 /\ nIn s3 = nIn s2 /\ contact_names s3 = contact_names s2 /\
    nEq s3 = if String.eqb n m then f_eq (erase3 s c) else nEq s2.
Proof.
  intros _ P0 P1 Bs Hr. destruct (String.eqb_spec n m) as [Em|Em].
  - rewrite (P0 Em). destruct (prio0 s m).
    + apply finish_motion in Hr. destruct (finish_flags _ _ _ _ bs1 _ _ Hr) as (b3 & F3 & B3). rewrite (B3 Bs) in F3.
      eexists. split; [exact F3|]. split; [reflexivity|]. split; [reflexivity|]. split; [reflexivity|]. split; reflexivity.
    + destruct (finish_flags _ _ _ _ bs1 _ _ Hr) as (b3 & F3 & B3). rewrite (B3 Bs) in F3.
      exists s2. split; [exact F3|]. split; [reflexivity|]. split; [reflexivity|]. split; [reflexivity|]. split; [reflexivity|].
      exact (finish_eq _ _ _ _ _ Hr).
  - rewrite (P1 Em). destruct (finish_flags _ _ _ _ bs1 _ _ Hr) as (b3 & F3 & B3). rewrite (B3 Bs) in F3.
    exists s2. split; [exact F3|]. split; [reflexivity|]. split; [reflexivity|]. split; [reflexivity|]. split; reflexivity.
Qed.

Lemma drop_remove_contact dbg nv na (M0 : mat K) H0 (s : fstate) c n s' b s2 b2 :
  reach (step dbg) named (init nv na M0 H0) s -> of_contact c n -> remove_from_hqp s n = Ret s' b ->
  remove_contact_now false s c = Ret s2 b2 ->
  remove_contact_now true s' c = Undef /\
  exists s3, remove_contact_now false s' c = Ret s3 false /\
    hqp s3 = hqp s2 /\ nVar s3 = nVar s2 /\ nIn s3 = nIn s2 /\ contact_names s3 = contact_names s2 /\
    nEq s3 = if String.eqb n (c ++ "_motion_task") then nEq s else nEq s2.
Proof.
  intros R Hn E Hr. destruct (named_AB dbg nv na M0 H0 s R) as (HA & HB).
  destruct (drop_form s n HB) as (b' & E' & _). rewrite E in E'. injection E' as Es _.
  assert (N1 : NoDup (hqp_names s')) by (rewrite Es; apply drop_names; exact (b_names _ HB)).
  assert (Ab : ~ In n (hqp_names s')) by (rewrite Es; intros I; exact (absent_drop s n n HB eq_refl I)).
  destruct (now_form s' c) as (bs1 & F1 & P1 & P2 & P3). destruct (now_form s c) as (bs & F & _).
  assert (Bs := some_missing s' c n bs1 N1 Hn Ab P1 P2 P3).
  split; [exact (missing_debug s' c bs1 P1 P2 P3 Bs)|].
  rewrite F in Hr. rewrite F1. clear F F1.
  assert (E3 : erase3 s' c = erase3 s c) by (rewrite Es; exact (drop_erase3 s c n HB Hn)).
  assert (Eh : nEq s = f_eq (erase3 s c)) by (rewrite (erase3_drop s c (b_names _ HB)); reflexivity).
  rewrite E3, Eh. apply (finish_dropped s s' c n bs bs1 s2 b2 _ eq_refl); auto.
  - intros Em. unfold prio0. rewrite level_has_absent; [reflexivity|]. rewrite <- Em. exact Ab.
  - intros Em. unfold prio0. rewrite Es. cbn [f_heap f_hqp w_hqp]. rewrite prio_drop by exact Em. reflexivity.
Qed.

(** Its weight cannot be changed any more. *)
Lemma drop_update dbg nv na (M0 : mat K) H0 (s : fstate) n w s' b :
  reach (step dbg) named (init nv na M0 H0) s -> remove_from_hqp s n = Ret s' b ->
  step dbg s' (OUpdTask n w) = Ret s' (OutBool false).
Proof.
  intros R E. destruct (named_AB dbg nv na M0 H0 s R) as (HA & HB).
  destruct (drop_form s n HB) as (b' & E' & _). rewrite E in E'. injection E' as Es _.
  assert (Ab : ~ In n (hqp_names s')) by (rewrite Es; intros I; exact (absent_drop s n n HB eq_refl I)).
  cbn [step]. unfold upd_task_weight. unfold hqp_names in Ab. destruct (f_hqp s') as [|l0 ls]; [reflexivity|].
  destruct (upd_weight_levels (f_heap s') n w ls) as [ls'|] eqn:U; [|reflexivity].
  exfalso. apply Ab. apply upd_levels_first in U. destruct U as (i & l1 & e & l2 & Hn & _ & En & _).
  apply in_map_iff. exists e. split; [exact En|]. apply in_concat. exists (l1 ++ e :: l2). split; [right; eapply nth_error_In; exact Hn|].
  apply in_or_app. right. left. reflexivity.
Qed.
End Later.
