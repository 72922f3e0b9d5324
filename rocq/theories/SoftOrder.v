(** Consequences for the user: the order of the calls does not matter, a larger weight gives a
    smaller error, and what updateTaskWeight does to the motion. *)
From Coq Require Import String List Arith Bool ZArith Lia Permutation Reals Lra.
From Verif Require Import Scalar Outcome Linalg Constraint Formulation ListUtil FormSpec FormDataSpec FormPhysSpec RSum FormInv FormInvB FormInvC FormOps FormSafe FormSafe2 FormData FormZero FormHist FormPhys FormDecode FormMain FormLevels FormSolver SoftTasks SoftPlan SoftSame.
Import ListNotations.
Open Scope string_scope.
Open Scope list_scope.
Open Scope nat_scope.
Local Notation rsum := (@nsum Rnum).

Lemma cost_ext V W s e x : (forall m, V m = W m) -> cost_with V s e x = cost_with W s e x.
Proof.
  intros H. rewrite (cost_lin V W (fun _ => 0%R) 0 s e x) by (intros m; rewrite H; ring). ring.
Qed.

Section Two.
Variables (dbg1 dbg2 : bool) (nv na : nat) (M1 M2 : mat Rnum) (H1 H2 : vec Rnum) (asc1 asc2 : nat -> string) (e : env Rnum) (s q : fstate Rnum) (r : R) (y z : vec Rnum).
Hypotheses (Ps : planned dbg1 nv na M1 H1 asc1 e s r y) (Pq : planned dbg2 nv na M2 H2 asc2 e q r z).
Hypotheses (ST : same_things s q) (Fs : forces_placed s e).

(** The motion of each, seen in the other, and how they compare. *)
Lemma compare : exists zs yq, same_motion q s (vget z) zs /\ physical s e zs /\ (forall W, cost_with W s e zs = cost_with W q e (vget z)) /\ size_of s zs = size_of q (vget z) /\
  same_motion s q (vget y) yq /\ physical q e yq /\ (forall W, cost_with W q e yq = cost_with W s e (vget y)) /\ size_of q yq = size_of s (vget y).
Proof.
  destruct (plan_facts _ _ _ _ _ _ _ _ _ _ Ps) as (As & Bs & Es & _). destruct (plan_facts _ _ _ _ _ _ _ _ _ _ Pq) as (Aq & Bq & Eq & _).
  destruct (plan_best _ _ _ _ _ _ _ _ _ _ Ps) as [Phs _]. destruct (plan_best _ _ _ _ _ _ _ _ _ _ Pq) as [Phq _].
  assert (TS := same_sym _ _ ST). assert (Fq := placed_sym _ _ _ ST Fs).
  destruct (arrange q s Aq Bq As TS (vget z)) as [zs Zs]. destruct (arrange s q As Bs Aq ST (vget y)) as [yq Yq]. exists zs, yq.
  split; [exact Zs|]. split; [exact (same_physical q s e Aq Bq As Bs Eq TS _ _ Zs Fq Phq)|].
  split; [intros W; symmetry; exact (same_cost q s e Aq Bq As Bs Eq TS _ _ Zs Fq W)|]. split; [symmetry; exact (same_size q s Aq As TS _ _ Zs)|].
  split; [exact Yq|]. split; [exact (same_physical s q e As Bs Aq Bq Es ST _ _ Yq Fs Phs)|].
  split; [intros W; symmetry; exact (same_cost s q e As Bs Aq Bq Es ST _ _ Yq Fs W)|symmetry; exact (same_size s q As Aq ST _ _ Yq)].
Qed.
(** Same things, same weights: same accelerations, contact forces and torques. *)
Theorem order_free : (0 < r)%R -> weights_ok s -> (forall n, soft_weight s n = soft_weight q n) ->
  same_motion s q (vget y) (vget z) /\ forall i, needed_torque s e (vget y) i = needed_torque q e (vget z) i.
Proof.
  intros Hr Hw HW. destruct compare as (zs & yq & Zs & Phz & Cz & Sz & Yq & Phy & Cy & Sy).
  destruct (plan_best _ _ _ _ _ _ _ _ _ _ Pq) as [_ Bq]. specialize (Bq yq Phy). unfold soft_cost in Bq. rewrite Cy, Sy in Bq.
  rewrite !(cost_ext (soft_weight q) (soft_weight s)) in Bq by (intros; symmetry; apply HW).
  assert (Q : forall i, i < nVar s -> zs i = vget y i).
  { apply (plan_unique _ _ _ _ _ _ _ _ _ _ Ps zs Hr Hw Phz). unfold soft_cost. rewrite Cz, Sz. exact Bq. }
  assert (X : same_motion s q (vget y) (vget z)).
  { apply motion_sym in Zs; [|apply same_sym; exact ST]. destruct (plan_facts _ _ _ _ _ _ _ _ _ _ Ps) as (As & Bs & _). destruct Zs as [Z1 Z2]. split.
    - intros j Hj. rewrite <- Q by (unfold nVar; lia). apply Z1, Hj.
    - intros c d Hc Hd E k Hk. rewrite <- (Z2 c d Hc Hd E k Hk). unfold force_of. symmetry. apply Q. assert (F := contact_fits s As Bs c Hc). lia. }
  split; [exact X|]. intros i. apply same_torque; assumption.
Qed.
(** The same things but one weight larger: that error does not grow, the rest does not shrink. *)
Theorem heavier n : (forall m, m <> n -> soft_weight s m = soft_weight q m) -> (soft_weight s n < soft_weight q n)%R ->
  (error_of n q e (vget z) <= error_of n s e (vget y))%R /\
  ((0 <= soft_weight s n)%R -> (others n s e (vget y) + r * size_of s (vget y) <= others n q e (vget z) + r * size_of q (vget z))%R).
Proof.
  intros HW Hn. destruct compare as (zs & yq & Zs & Phz & Cz & Sz & Yq & Phy & Cy & Sy).
  destruct (plan_best _ _ _ _ _ _ _ _ _ _ Ps) as [_ Bs]. specialize (Bs zs Phz). destruct (plan_best _ _ _ _ _ _ _ _ _ _ Pq) as [_ Bq]. specialize (Bq yq Phy).
  assert (O : forall u, others n s e u = cost_with (fun m => if String.eqb m n then 0%R else soft_weight q m) s e u).
  { intros u. apply cost_ext. intros m. destruct (String.eqb_spec m n) as [|Ne]; [reflexivity|apply HW, Ne]. }
  rewrite !(soft_split n) in Bs, Bq. rewrite O in Bs. rewrite (O zs), Cz, Sz in Bs. unfold error_of in Bs at 2. rewrite Cz in Bs. fold (error_of n q e (vget z)) in Bs.
  unfold others in Bq at 2. rewrite Cy, Sy in Bq. unfold error_of in Bq at 2. rewrite Cy in Bq. fold (error_of n s e (vget y)) in Bq. rewrite O. fold (others n q e (vget z)) in Bs.
  assert (E : (error_of n q e (vget z) <= error_of n s e (vget y))%R) by nra. split; [exact E|]. intros Hp. nra.
Qed.
End Two.

(** ** The error of a task *)
Lemma lsum_one {A} (k : A -> string) (f : A -> R) l a : NoDup (map k l) -> In a l -> lsum (fun b => (if String.eqb (k b) (k a) then 1 else 0) * f b)%R l = f a.
Proof.
  induction l as [|b l IH]; intros N Ha; [contradiction|]. inversion N as [|? ? Nb N']; subst. rewrite lsum_cons. destruct Ha as [->|Ha].
  - rewrite String.eqb_refl, lsum_zero; [lra|]. intros b Hb. destruct (String.eqb_spec (k b) (k a)) as [E|]; [|lra]. exfalso. apply Nb. rewrite <- E. apply in_map, Hb.
  - rewrite (IH N' Ha). destruct (String.eqb_spec (k b) (k a)) as [E|]; [|lra]. exfalso. apply Nb. rewrite E. apply in_map, Ha.
Qed.
Section Names.
Variables (s : fstate Rnum).
Hypotheses (A : invA s) (B : invB s).
Lemma task_names_nodup : NoDup (map tl_name (tasks s)).
Proof.
  assert (N := owners_nodup_names s B). unfold owners in N. simpl in N. inversion N as [|? ? _ N']; subst. rewrite map_app in N'. apply NoDup_app_l in N'.
  rewrite map_map in N'. rewrite (map_ext_in tl_name (fun t => name_at (f_heap s) (tl_cstr t))); [exact N'|]. intros t Ht. symmetry. apply (task_name s B t Ht).
Qed.
Lemma not_reserved t c : In t (tasks s) -> In c (f_contacts s) -> tl_name t <> (cl_name s c ++ "_motion_task")%string /\ tl_name t <> (cl_name s c ++ "_force_reg_task")%string.
Proof.
  intros Ht Hc. destruct (task_name s B t Ht) as [Ot Nt]. destruct (b_con _ B c Hc) as ([[[[n nf] mr] fr] rr] & Hok). destruct (con_name s c n nf mr fr rr Hok) as [Nc _].
  destruct Hok as (_ & I1 & _ & I3 & _). rewrite Nc.
  assert (N := owners_nodup_names s B). unfold owners in N. simpl in N. inversion N as [|? ? _ N']; subst. rewrite map_app in N'.
  assert (G : forall a, In a (con_addrs c) -> name_at (f_heap s) a <> tl_name t).
  { intros a Ha E. apply (NoDup_app_inv _ _ (tl_name t) N').
    - rewrite <- Nt. apply in_map. apply in_map, Ht.
    - rewrite <- E. apply in_map. apply in_flat_map. exists c. auto. }
  split; intros E; [apply (G (cl_motion c))|apply (G (cl_reg c))]; try (unfold con_addrs; simpl; tauto).
  - rewrite (info_name _ _ _ _ _ I1). symmetry. exact E.
  - rewrite (info_name _ _ _ _ _ I3). symmetry. exact E.
Qed.

Lemma sel_zero (k : string) (v : R) n : k <> n -> ((if String.eqb k n then 1 else 0) * v = 0)%R.
Proof. intros H. apply String.eqb_neq in H. rewrite H. ring. Qed.
Lemma other_name t t' : In t (tasks s) -> In t' (tasks s) -> t <> t' -> tl_name t' <> tl_name t.
Proof. intros Ht Ht' Ne E. apply Ne. symmetry. apply (NoDup_map_inj tl_name (tasks s)); auto using task_names_nodup. Qed.
Lemma contacts_zero t e x : In t (tasks s) -> lsum (contact_cost (fun m => if String.eqb m (tl_name t) then 1%R else 0%R) s e x) (f_contacts s) = 0%R.
Proof.
  intros Ht. apply lsum_zero. intros c Hc. destruct (not_reserved t c Ht Hc) as [N1 N2]. unfold contact_cost. rewrite !sel_zero by congruence. lra.
Qed.
Lemma parts_nodup : NoDup (map tl_name (f_motions s)) /\ NoDup (map tl_name (f_forces s)) /\ NoDup (map tl_name (f_acts s)).
Proof.
  assert (N := task_names_nodup). unfold tasks in N. rewrite !map_app in N. split; [exact (NoDup_app_l _ _ N)|]. apply NoDup_app_r in N. split; [exact (NoDup_app_l _ _ N)|exact (NoDup_app_r _ _ N)].
Qed.
Lemma parts_apart : (forall t t', In t (f_motions s) -> In t' (f_forces s ++ f_acts s) -> tl_name t' <> tl_name t) /\
  (forall t t', In t (f_forces s) -> In t' (f_acts s) -> tl_name t' <> tl_name t).
Proof.
  assert (N := task_names_nodup). unfold tasks in N. rewrite map_app in N. split.
  - intros t t' Ht Ht' E. apply (NoDup_app_inv _ _ (tl_name t) N); [apply in_map, Ht|]. rewrite <- E. apply in_map, Ht'.
  - apply NoDup_app_r in N. rewrite map_app in N. intros t t' Ht Ht' E. apply (NoDup_app_inv _ _ (tl_name t) N); [apply in_map, Ht|]. rewrite <- E. apply in_map, Ht'.
Qed.
Lemma motion_error t e x : In t (f_motions s) -> error_of (tl_name t) s e x = gap (e_task e (tl_task t)) x.
Proof.
  intros Ht. destruct parts_nodup as [N _]. destruct parts_apart as [P _]. unfold error_of, cost_with. rewrite contacts_zero by (unfold tasks; rewrite !in_app_iff; auto).
  unfold motion_cost. rewrite (lsum_one tl_name (fun t => gap (e_task e (tl_task t)) x) (f_motions s) t N Ht).
  rewrite (lsum_zero (force_cost _ s e x)) by (intros t' Ht'; apply sel_zero, (P t t' Ht); apply in_or_app; auto).
  rewrite (lsum_zero (act_cost _ s e x)) by (intros t' Ht'; apply sel_zero, (P t t' Ht); apply in_or_app; auto). lra.
Qed.
Lemma force_error t e x : In t (f_forces s) -> error_of (tl_name t) s e x = gap (e_task e (tl_task t)) (fun r => x (fst (force_slot s (e_assoc e (tl_task t))) + r)%nat).
Proof.
  intros Ht. destruct parts_nodup as (_ & N & _). destruct parts_apart as [P1 P2]. unfold error_of, cost_with. rewrite contacts_zero by (unfold tasks; rewrite !in_app_iff; auto).
  unfold force_cost. rewrite (lsum_one tl_name (fun t => gap (e_task e (tl_task t)) (fun r => x (fst (force_slot s (e_assoc e (tl_task t))) + r)%nat)) (f_forces s) t N Ht).
  rewrite (lsum_zero (motion_cost _ e x)) by (intros t' Ht'; apply sel_zero, not_eq_sym, (P1 t' t Ht'); apply in_or_app; auto).
  rewrite (lsum_zero (act_cost _ s e x)) by (intros t' Ht'; apply sel_zero, (P2 t t' Ht Ht')). lra.
Qed.
Lemma act_error t e x : In t (f_acts s) -> error_of (tl_name t) s e x = gap (e_task e (tl_task t)) (fun q => needed_torque s e x (f_nu s + q)%nat).
Proof.
  intros Ht. destruct parts_nodup as (_ & _ & N). destruct parts_apart as [P1 P2]. unfold error_of, cost_with. rewrite contacts_zero by (unfold tasks; rewrite !in_app_iff; auto).
  unfold act_cost. rewrite (lsum_one tl_name (fun t => gap (e_task e (tl_task t)) (fun q => needed_torque s e x (f_nu s + q)%nat)) (f_acts s) t N Ht).
  rewrite (lsum_zero (motion_cost _ e x)) by (intros t' Ht'; apply sel_zero, not_eq_sym, (P1 t' t Ht'); apply in_or_app; auto).
  rewrite (lsum_zero (force_cost _ s e x)) by (intros t' Ht'; apply sel_zero, not_eq_sym, (P2 t' t Ht' Ht)). lra.
Qed.
End Names.

(** ** updateTaskWeight *)
(** Weight of a name in a level. *)
Definition weigh_in (h : list (constr Rnum)) (l : list (R * nat)) (n : string) : R := lsum (fun en => if String.eqb (name_at h (snd en)) n then fst en else 0%R) l.
Lemma shapes_name h h' a : map (@shape Rnum) h' = map (@shape Rnum) h -> option_map (@c_name Rnum) (nth_error h' a) = option_map (@c_name Rnum) (nth_error h a).
Proof.
  intros H. assert (E : nth_error (map (@shape Rnum) h') a = nth_error (map (@shape Rnum) h) a) by (rewrite H; reflexivity).
  rewrite !nth_error_map in E. destruct (nth_error h' a) as [c'|], (nth_error h a) as [c|]; try discriminate; [|reflexivity].
  cbn [option_map] in *. unfold shape in E. injection E as E _ _ _. congruence.
Qed.
Lemma name_shapes h h' a : map (@shape Rnum) h' = map (@shape Rnum) h -> name_at h' a = name_at h a.
Proof. intros H. assert (E := shapes_name h h' a H). unfold name_at. destruct (nth_error h' a), (nth_error h a); cbn in E; try congruence; try discriminate. Qed.
Lemma soft_in (s : fstate Rnum) l0 l1 n : invA s -> f_hqp s = [l0; l1] -> soft_weight s n = weigh_in (f_heap s) l1 n.
Proof.
  intros A HQ. unfold soft_weight, hqp. rewrite HQ. cbn [map nth]. rewrite lsum_map. apply lsum_ext. intros [w a] Hen.
  assert (Fc := ia_cols _ A). rewrite Forall_forall in Fc. destruct (Fc (w, a)) as (nn & kd & rr & Hs); [rewrite HQ; simpl; rewrite app_nil_r; apply in_or_app; right; exact Hen|].
  apply nth_shape in Hs. destruct Hs as (k & Hk & _). cbn [snd] in Hk. change (@deref Rnum s (w, a)) with (w, nth_error (f_heap s) a). cbn [fst snd].
  unfold named, entry_name, name_at. cbn [snd]. rewrite Hk. reflexivity.
Qed.
Lemma upd_weigh h n w l : forall l', upd_weight_level h n w l = Some l' -> NoDup (map (fun en => name_at h (snd en)) l) ->
  map snd l' = map snd l /\ forall m, weigh_in h l' m = if String.eqb m n then w else weigh_in h l m.
Proof.
  induction l as [|[v a] l IH]; intros l' H N; [discriminate|]. cbn [upd_weight_level snd] in H. inversion N as [|? ? Na N']; subst. cbn [snd] in Na.
  destruct (String.eqb_spec (name_at h a) n) as [E|E].
  - injection H as <-. split; [reflexivity|]. intros m. unfold weigh_in. rewrite !lsum_cons. cbn [fst snd].
    destruct (String.eqb_spec m n) as [->|Nm].
    + rewrite E, String.eqb_refl, lsum_zero; [apply Rplus_0_r|]. intros [v' b] Hb. cbn [snd fst]. destruct (String.eqb_spec (name_at h b) n) as [E'|]; [|reflexivity].
      exfalso. apply Na. rewrite E, <- E'. apply (in_map (fun en => name_at h (snd en)) l (v', b) Hb).
    + destruct (String.eqb_spec (name_at h a) m) as [X|]; [congruence|]. reflexivity.
  - destruct (upd_weight_level h n w l) as [k|] eqn:U; [|discriminate]. injection H as <-. destruct (IH k eq_refl N') as [I1 I2]. split; [cbn [map snd]; rewrite I1; reflexivity|].
    intros m. unfold weigh_in in *. rewrite !lsum_cons. cbn [fst snd]. rewrite I2. destruct (String.eqb_spec m n) as [->|]; [|reflexivity].
    destruct (String.eqb_spec (name_at h a) n) as [X|]; [congruence|]. apply Rplus_0_l.
Qed.
(** What updateTaskWeight changes, seen after the next computeProblemData. *)
Section Update.
Variables (dbg : bool) (nv na : nat) (M0 : mat Rnum) (H0 : vec Rnum) (s s2 : fstate Rnum) (n : string) (w t : R) (e : env Rnum) (s1' s2' : fstate Rnum).
Hypotheses (Hr : reach (step dbg) (good dbg) (init nv na M0 H0) s) (R0 : FormMain.robot_ok nv M0 H0) (Ht : f_trans s = []).
Hypothesis HU : step dbg s (@OUpdTask Rnum n w) = Ret s2 (OutBool true).
Hypotheses (C1 : step dbg s (@Formulation.OCompute Rnum t e) = Ret s1' OutUnit) (C2 : step dbg s2 (@Formulation.OCompute Rnum t e) = Ret s2' OutUnit).
Theorem update_effect : same_things s1' s2' /\ soft_weight s2' n = w /\ forall m, m <> n -> soft_weight s1' m = soft_weight s2' m.
Proof.
  destruct R0 as (R1 & R2 & R3). destruct (safe_reach dbg nv na M0 H0 s R1 R2 R3 Hr) as (A & B & _).
  assert (L : List.length (f_hqp s) = 2) by exact (two_levels dbg _ nv na M0 H0 s Hr).
  destruct (f_hqp s) as [|l0 [|l1 [|? ?]]] eqn:HQ; try discriminate.
  assert (HU0 := HU). cbn [step Formulation.step] in HU. unfold upd_task_weight in HU. rewrite HQ in HU. cbn [upd_weight_levels] in HU.
  destruct (upd_weight_level (f_heap s) n w l1) as [l1'|] eqn:U; [|discriminate]. injection HU as E2.
  assert (ND : NoDup (map (fun en => name_at (f_heap s) (snd en)) l1)).
  { assert (N := b_names _ B). unfold hqp_names in N. rewrite HQ in N. simpl in N. rewrite app_nil_r, map_app in N. apply NoDup_app_r in N. exact N. }
  destruct (upd_weigh _ _ _ _ _ U ND) as [U1 U2].
  destruct (compute_inv _ _ _ _ _ C1) as (u1 & T1 & F1). rewrite Ht in T1. cbn [run_transitions] in T1. injection T1 as <-.
  destruct (compute_inv _ _ _ _ _ C2) as (u2 & T2 & F2). rewrite <- E2 in T2. cbn [w_hqp f_trans] in T2. rewrite Ht in T2. cbn [run_transitions] in T2. injection T2 as <-.
  assert (S1 := comp_fill_same _ _ _ F1). assert (S2 := comp_fill_same _ _ _ F2). destruct (comp_fill_obs _ _ _ F1) as (O1 & O2 & _). destruct (comp_fill_obs _ _ _ F2) as (P1 & P2 & _).
  destruct S1 as [a1 a2 a3 a4 a5 a6 a7 a8 a9 a10 a11 a12 a13 a14 a15]. destruct S2 as [b1 b2 b3 b4 b5 b6 b7 b8 b9 b10 b11 b12 b13 b14 b15].
  cbn [w_t w_hqp f_nv f_nu f_k f_hqp f_contacts f_motions f_forces f_acts f_objs f_meas] in *.
  change (shapes s1' = shapes s) in a6. change (shapes s2' = shapes s) in b6.
  assert (A1 : invA s1'). { eapply (invA_step dbg s); [exact A|]. rewrite C1. reflexivity. }
  assert (A2 : invA s2). { eapply (invA_step dbg s); [exact A|]. rewrite HU0. reflexivity. }
  assert (A2' : invA s2'). { eapply (invA_step dbg s2); [exact A2|]. rewrite C2. reflexivity. }
  rewrite HQ in a7.
  assert (W1 : forall m, soft_weight s1' m = weigh_in (f_heap s) l1 m).
  { intros m. rewrite (soft_in s1' l0 l1 m A1 a7). apply lsum_ext. intros en _. rewrite (name_shapes _ _ _ a6). reflexivity. }
  assert (W2 : forall m, soft_weight s2' m = weigh_in (f_heap s) l1' m).
  { intros m. rewrite (soft_in s2' l0 l1' m A2' b7). apply lsum_ext. intros en _. rewrite (name_shapes _ _ _ b6). reflexivity. }
  split; [|split].
  - constructor; rewrite ?a1, ?a2, ?a9, ?a10, ?a11, ?a12, ?b1, ?b2, ?b9, ?b10, ?b11, ?b12, ?O1, ?O2, ?P1, ?P2; try reflexivity; try apply Permutation_refl.
    intros c d Hc Hd Ec. unfold hard_motion, hqp. rewrite a7, b7. cbn [map nth].
    assert (Nn : cl_name s1' c = cl_name s2' d) by (unfold cl_name, cobj_at; rewrite O1, P1, Ec; reflexivity). rewrite Nn.
    assert (G : forall x : R * nat, entry_name (@deref Rnum s1' x) = entry_name (@deref Rnum s2' x)).
    { intros [v a]. change (option_map (@c_name Rnum) (nth_error (f_heap s1') a) = option_map (@c_name Rnum) (nth_error (f_heap s2') a)).
      rewrite (shapes_name _ _ a a6), (shapes_name _ _ a b6). reflexivity. }
    split; intros (en & Hen & En); apply in_map_iff in Hen; destruct Hen as (x & <- & Hx).
    + exists (deref s2' x). split; [apply in_map, Hx|]. rewrite <- G. exact En.
    + exists (deref s1' x). split; [apply in_map, Hx|]. rewrite G. exact En.
  - rewrite W2, U2, String.eqb_refl. reflexivity.
  - intros m Hm. rewrite W1, W2, U2. apply String.eqb_neq in Hm. rewrite Hm. reflexivity.
Qed.
End Update.
(** * The theorems *)
(** Only two regularisations are used: none with ProxQP and OSQP, 1e-8 with the others. *)
Theorem plan_reg dbg nv na (M0 : mat Rnum) H0 asc e s r y : planned dbg nv na M0 H0 asc e s r y -> r = 0%R \/ r = (/ 100000000)%R.
Proof. intros (_ & ? & ? & ? & ? & b & ? & ? & ? & ? & ? & ? & _ & _ & _ & _ & _ & _ & _ & _ & _ & ->). destruct b; cbn; auto. Qed.
Lemma reg_pos dbg nv na (M0 : mat Rnum) H0 asc e s r y : planned dbg nv na M0 H0 asc e s r y -> (0 <= r)%R.
Proof. intros H. destruct (plan_reg _ _ _ _ _ _ _ _ _ _ H) as [->| ->]; lra. Qed.
(** What the error of a task present is. *)
Theorem errors dbg nv na (M0 : mat Rnum) H0 asc e s r y : planned dbg nv na M0 H0 asc e s r y -> forall t x,
  (In t (f_motions s) -> error_of (tl_name t) s e x = gap (e_task e (tl_task t)) x) /\
  (In t (f_forces s) -> error_of (tl_name t) s e x = gap (e_task e (tl_task t)) (fun i => x (fst (force_slot s (e_assoc e (tl_task t))) + i)%nat)) /\
  (In t (f_acts s) -> error_of (tl_name t) s e x = gap (e_task e (tl_task t)) (fun i => needed_torque s e x (f_nu s + i)%nat)).
Proof.
  intros P t x. destruct (plan_facts _ _ _ _ _ _ _ _ _ _ P) as (_ & B & _). split; [|split]; intros Ht; [apply motion_error|apply force_error|apply act_error]; assumption.
Qed.
(** When some motion respects the hard constraints and meets every soft task, the planned motion
    meets them up to the regularisation. *)
Theorem met dbg nv na (M0 : mat Rnum) H0 asc e s r y : planned dbg nv na M0 H0 asc e s r y -> weights_ok s -> forall z, physical s e z -> soft_cost s e z = 0%R ->
  forall n, (soft_weight s n * error_of n s e (vget y) <= r * size_of s z)%R /\ (r = 0%R -> (0 < soft_weight s n)%R -> error_of n s e (vget y) = 0%R).
Proof.
  intros P W z Pz Cz n. assert (Hr := reg_pos _ _ _ _ _ _ _ _ _ _ P). destruct (plan_best _ _ _ _ _ _ _ _ _ _ P) as [_ B]. specialize (B z Pz). rewrite Cz, (soft_split n) in B.
  assert (O := others_pos n s e (vget y) W). assert (E := error_pos n s e (vget y)).
  assert (Z : (0 <= r * size_of s (vget y))%R) by (apply Rmult_le_pos; [exact Hr|apply size_pos]).
  assert (X : (soft_weight s n * error_of n s e (vget y) <= r * size_of s z)%R) by lra. split; [exact X|]. intros -> Hw.
  destruct E as [E|E]; [|auto]. assert (Q := Rmult_lt_0_compat _ _ Hw E). lra.
Qed.
Theorem plan_bound dbg nv na (M0 : mat Rnum) H0 asc e s r y : planned dbg nv na M0 H0 asc e s r y -> weights_ok s -> forall n z, physical s e z -> (0 < soft_weight s n)%R ->
  (error_of n s e (vget y) <= error_of n s e z + (others n s e z + r * size_of s z) / soft_weight s n)%R.
Proof. intros P W n z Pz Hn. eapply plan_error; eauto. eapply reg_pos, P. Qed.
Theorem plan_is_best dbg nv na (M0 : mat Rnum) H0 asc e s r y : planned dbg nv na M0 H0 asc e s r y ->
  physical s e (vget y) /\ (forall z, physical s e z -> (soft_cost s e (vget y) + r * size_of s (vget y) <= soft_cost s e z + r * size_of s z)%R) /\
  (r = 0%R \/ r = (/ 100000000)%R).
Proof. intros H. destruct (plan_best _ _ _ _ _ _ _ _ _ _ H) as [A B]. split; [exact A|]. split; [exact B|]. exact (plan_reg _ _ _ _ _ _ _ _ _ _ H). Qed.
