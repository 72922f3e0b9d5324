(** The problem data after a computation depend only on what is present and on the
    values returned by the robot, tasks and contacts, not on the history. *)
From Coq Require Import String List Arith Bool ZArith Lia Permutation.
From Verif Require Import Scalar Outcome Linalg Constraint Formulation ListUtil FormSpec FormDataSpec FormInv FormInvB FormInvC FormOps FormSafe FormSafe2 FormData FormZero.
Import ListNotations.
Open Scope string_scope.
Open Scope list_scope.
Open Scope nat_scope.

Section Hist.
Context {K : num}.
Variable dbg : bool.
Local Notation fstate := (fstate K).
Local Notation step := (step dbg).
Implicit Types (s : fstate) (h : list (constr K)) (w : K).

Definition fixed_ok (asc : nat -> string) s (o : fop K) : Prop :=
  names_ok s o /\ op_ok dbg s o /\ assoc_fixed asc o.

Lemma footprint_init asc nv na (M0 : mat K) H0 : footprint asc (init nv na M0 H0).
Proof. split; [|split]; simpl; intros; contradiction. Qed.

Lemma reach_weaken {P Q : fstate -> fop K -> Prop} s0 s : (forall s o, P s o -> Q s o) -> reach step P s0 s -> reach step Q s0 s.
Proof. intros H R. induction R; [constructor|econstructor; eauto]. Qed.

Lemma fixed_reach nv na (M0 : mat K) H0 asc s :
  mrows M0 = nv -> mcols M0 = nv -> vlen H0 = nv ->
  reach step (fixed_ok asc) (init nv na M0 H0) s ->
  invA s /\ invB s /\ safe s /\ footprint asc s.
Proof.
  intros E1 E2 E3 Hr.
  assert (W : forall q, reach step (fixed_ok asc) (init nv na M0 H0) q -> invA q /\ invB q /\ safe q).
  { intros q Hq. eapply safe_reach; try eassumption. eapply reach_weaken; [|exact Hq]. unfold fixed_ok; tauto. }
  destruct (W s Hr) as (A & B & S). repeat (split; [assumption|]). clear A B S.
  induction Hr as [|s o s' Hr IH (Hn & Ho & Hf) Ha]; [apply footprint_init|].
  destruct (W s Hr) as (A & B & S). eapply footprint_step; eauto.
Qed.

Lemma compute_inv s t e s' : step s (OCompute t e) = Ret s' OutUnit ->
  exists s1, run_transitions dbg (w_t s t) [] (f_trans s) = Ret s1 tt /\ comp_fill s1 e = Some s'.
Proof.
  cbn [step Formulation.step]. unfold compute. intros H.
  change (f_trans (w_t s t)) with (f_trans s) in H.
  destruct (run_transitions _ _ _ _) as [s1 []|s1|] eqn:E; try discriminate.
  destruct (comp_fill s1 e) as [s2|] eqn:E2; [|discriminate]. injection H as <-. eauto.
Qed.

(** C10, first part: the contents after computeProblemData. *)
Theorem compute_data nv na (M0 : mat K) H0 asc s t e s' :
  mrows M0 = nv -> mcols M0 = nv -> vlen H0 = nv ->
  reach step (fixed_ok asc) (init nv na M0 H0) s ->
  fixed_ok asc s (OCompute t e) -> step s (OCompute t e) = Ret s' OutUnit ->
  invA s' /\ invB s' /\ invS s' /\ data_ok s' e.
Proof.
  intros E1 E2 E3 Hr (Hn & Ho & Ha) Hs.
  destruct (fixed_reach _ _ _ _ _ _ E1 E2 E3 Hr) as (A & B & S & F).
  assert (Hs' : after (step s (OCompute t e)) = Some s') by (rewrite Hs; reflexivity).
  assert (A' : invA s') by (eapply (invA_step dbg s); [exact A|exact Hs']).
  assert (B' : invB s') by (eapply (invB_step dbg s); [exact A|exact B|exact Hn|exact Hs']).
  assert (S' : safe s').
  { assert (G := safe_step dbg s (OCompute t e) A B S Ho). rewrite Hs in G. exact G. }
  split; [exact A'|]. split; [exact B'|]. split; [apply S'|].
  destruct (compute_inv _ _ _ _ Hs) as (s1 & R & C).
  assert (Ft : footprint asc (w_t s t)) by (eapply footprint_same_heap; [exact F|..]; try reflexivity; apply incl_refl).
  destruct (transitions_footprint dbg asc _ _ _ s1 (invAB_time s t (conj A B)) Ft (f_equal after R)) as [[A1 B1] F1].
  destruct Ho as [Hp He].
  assert (S1 : invS s1).
  { destruct S as [HS HT]. destruct (invAB_time s t (conj A B)) as [At Bt].
    destruct (transitions_safe dbg (f_trans s) (w_t s t) []) as (s1' & Rr & Z1 & Z2 & Z3); auto;
      [exact (is_cells _ HS)|].
    assert (s1' = s1) by (destruct Rr; congruence). subst s1'. apply (invS_rdata s); auto. }
  eapply comp_fill_data; eauto.
Qed.

(** ** Same contents from two histories *)
Lemma same_owner s a b : invB s -> In a (owners s) -> In b (owners s) ->
  name_at (f_heap s) a = name_at (f_heap s) b -> a = b.
Proof. intros HB. apply NoDup_map_inj. apply owners_nodup_names; exact HB. Qed.

Lemma owner_in s a : invB s -> In a (map snd (concat (f_hqp s))) <-> In a (owners s).
Proof.
  intros HB. split; apply Permutation_in; [|symmetry]; exact (b_perm _ HB).
Qed.

Lemma only_cols_meq (M N m : mat K) j n : mrows M = mrows N -> mcols M = mcols N ->
  only_cols M j n m -> only_cols N j n m -> meq M N.
Proof.
  intros R C H1 H2. split; [exact R|]. split; [exact C|]. intros i q Hi Hq.
  rewrite H1, H2; auto; congruence.
Qed.

Lemma tiles_eq l : forall a l' b b', tiles a l b -> tiles a l' b' -> map snd l = map snd l' -> l = l' /\ b = b'.
Proof.
  induction l as [|[o n] l IH]; intros a [|[o' n'] l'] b b' H H' E; simpl in *; try discriminate.
  - subst; auto.
  - destruct H as [-> H]. destruct H' as [-> H']. injection E as -> E.
    destruct (IH _ _ _ _ H H' E) as [-> ->]. auto.
Qed.
Lemma tiles_cover l : forall a b r, tiles a l b -> a <= r < b -> exists o n, In (o, n) l /\ o <= r < o + n.
Proof.
  induction l as [|[o n] l IH]; intros a b r H Hr; simpl in *; [lia|].
  destruct H as [-> H]. destruct (Nat.lt_ge_cases r (a + n)).
  - exists a, n. split; [left; reflexivity|lia].
  - destruct (IH _ _ r H) as (o' & n' & Hi & Hb); [lia|]. eauto.
Qed.

Section Two.
Variables (s1 s2 : fstate) (e : env K).
Hypotheses (A1 : invA s1) (B1 : invB s1) (D1 : data_ok s1 e).
Hypotheses (A2 : invA s2) (B2 : invB s2) (D2 : data_ok s2 e).
Hypothesis Un : f_nu s1 <= f_nv s1.
Hypothesis P : same_present s1 s2.

Lemma two_nv : f_nv s1 = f_nv s2. Proof. apply P. Qed.
Lemma two_nu : f_nu s1 = f_nu s2. Proof. apply P. Qed.

Lemma two_contacts : map (fun c => (cl_obj c, cl_index c, cl_nforce s1 c, cl_name s1 c)) (f_contacts s1)
  = map (fun c => (cl_obj c, cl_index c, cl_nforce s2 c, cl_name s2 c)) (f_contacts s2) /\ f_k s1 = f_k s2.
Proof.
  destruct P as (_ & _ & Ho & Hx & _).
  assert (Hs : map snd (slots s1) = map snd (slots s2)).
  { unfold slots. rewrite !map_map. simpl. unfold contact_objs in Ho, Hx.
    revert Ho Hx. generalize (f_contacts s2). induction (f_contacts s1) as [|c l IH]; intros [|c' l'] Ho Hx; simpl in *; try discriminate; auto.
    injection Ho as Ho1 Ho2. f_equal.
    - unfold cl_nforce, cobj_at. rewrite Ho1, <- (Hx (cl_obj c')) by auto. reflexivity.
    - apply IH; auto. }
  destruct (tiles_eq _ _ _ _ _ (ia_tile _ A1) (ia_tile _ A2) Hs) as [Hsl Hk].
  split; [|exact Hk].
  clear Hs. unfold slots, contact_objs in *. revert Ho Hx Hsl. generalize (f_contacts s2).
  induction (f_contacts s1) as [|c l IH]; intros [|c' l'] Ho Hx Hsl; simpl in *; try discriminate; auto.
  injection Ho as Ho1 Ho2. injection Hsl as Hi Hn Hsl. f_equal.
  - rewrite Ho1, Hi, Hn. f_equal. unfold cl_name, cobj_at. rewrite Ho1, <- (Hx (cl_obj c')) by auto. reflexivity.
  - apply IH; auto.
Qed.

Lemma two_contact c1 : In c1 (f_contacts s1) -> exists c2, In c2 (f_contacts s2) /\ cl_obj c2 = cl_obj c1 /\
  cl_index c2 = cl_index c1 /\ cl_nforce s2 c2 = cl_nforce s1 c1 /\ cl_name s2 c2 = cl_name s1 c1.
Proof.
  intros H. destruct two_contacts as [E _].
  assert (X := in_map (fun c => (cl_obj c, cl_index c, cl_nforce s1 c, cl_name s1 c)) _ _ H). rewrite E in X.
  apply in_map_iff in X. destruct X as (c2 & Ec & Hc). injection Ec as ? ? ? ?. exists c2. auto.
Qed.

Lemma two_slot n : force_slot s1 n = force_slot s2 n.
Proof.
  destruct two_contacts as [E Ek]. unfold force_slot. rewrite two_nv, Ek.
  destruct (String.eqb n ""); [reflexivity|]. unfold find_contact.
  revert E. generalize (f_contacts s2). induction (f_contacts s1) as [|c l IH]; intros [|c' l'] E; simpl in *; try discriminate; auto.
  injection E as Eo Ei En Em E. rewrite Em. destruct (String.eqb (cl_name s2 c') n); [congruence|].
  specialize (IH _ E). destruct (take_contact s1 n l) as [[a b]|], (take_contact s2 n l') as [[a' b']|]; auto.
Qed.

Lemma two_J r j : r < f_k s1 -> j < f_nv s1 -> mget (f_Jc s1) r j = mget (f_Jc s2) r j.
Proof.
  intros Hr Hj. destruct (tiles_cover _ _ _ r (ia_tile _ A1)) as (o & n & Hin & Hb); [lia|].
  unfold slots in Hin. apply in_map_iff in Hin. destruct Hin as (c & Ec & Hc). injection Ec as <- <-.
  destruct (two_contact c Hc) as (c2 & Hc2 & Eo & Ei & En & _).
  assert (L := ia_objs _ A1). rewrite Forall_forall in L. specialize (L c Hc).
  destruct (nth_error (f_objs s1) (cl_obj c)) as [x|] eqn:Ex; [|apply nth_error_None in Ex; lia].
  assert (Nf : cl_nforce s1 c = co_nforce x) by (unfold cl_nforce, cobj_at; rewrite Ex; reflexivity).
  assert (Ex2 : nth_error (f_objs s2) (cl_obj c2) = Some x).
  { rewrite Eo. destruct P as (_ & _ & _ & Hx & _). rewrite <- Hx; [exact Ex|]. unfold contact_objs. apply in_map; exact Hc. }
  replace r with (cl_index c + (r - cl_index c)) at 1 by lia.
  rewrite (dk_J _ _ D1 c x) by (auto; lia).
  replace r with (cl_index c2 + (r - cl_index c)) at 2 by lia.
  rewrite (dk_J _ _ D2 c2 x) by (auto; rewrite <- ?two_nv; auto; lia). rewrite Eo. reflexivity.
Qed.

Lemma two_task l1 l2 t1 : same_tasks l1 l2 -> In t1 l1 -> exists t2, In t2 l2 /\ tl_task t2 = tl_task t1 /\ tl_name t2 = tl_name t1.
Proof.
  unfold same_tasks. intros E H.
  assert (X := in_map (fun t => (tl_task t, tl_name t, tl_prio t)) _ _ H). rewrite E in X.
  apply in_map_iff in X. destruct X as (t2 & Et & Ht). injection Et as ? ? ?. eauto.
Qed.

Lemma shape_ceq_task a1 a2 k1 k2 j n c : nth_error (f_heap s1) a1 = Some k1 -> nth_error (f_heap s2) a2 = Some k2 ->
  shape k1 = shape k2 -> is_eq (c_kind k1) = is_eq (c_kind c) ->
  only_cols (c_mat k1) j n (block_of n c) -> only_cols (c_mat k2) j n (block_of n c) ->
  same_rhs k1 c -> same_rhs k2 c -> ceq k1 k2.
Proof.
  intros _ _ Hs Hk O1 O2 R1 R2. unfold shape in Hs. injection Hs as S1 S2 S3 S4.
  split; [exact S1|]. split; [exact S2|]. split; [eapply only_cols_meq; eauto|].
  unfold same_rhs in R1, R2. destruct (c_kind c), (c_kind k1); simpl in Hk; try discriminate;
    try (rewrite R1, R2; apply veq_refl);
    destruct R1 as [R1 R1'], R2 as [R2 R2']; rewrite R1, R1', R2, R2'; split; apply veq_refl.
Qed.

Lemma veq_shifted (u v x : vec K) b b' : shifted u x b -> shifted v x b' -> (forall i, b i = b' i) -> veq u v.
Proof.
  intros [L1 G1] [L2 G2] Hb. split; [congruence|]. intros i Hi. rewrite L1 in Hi. rewrite G1, G2 by exact Hi. rewrite Hb; reflexivity.
Qed.

Lemma nk_mat (k : constr K) s a n kd r : invA s -> info s a = Some (n, kd, r) -> In a (owners s) -> invB s ->
  nth_error (f_heap s) a = Some k -> mcols (c_mat k) = nVar s.
Proof. intros HA Hi Ho HB Hk. eapply cell_cols; eauto. apply owner_in; assumption. Qed.

Lemma name_cell s a (k : constr K) : nth_error (f_heap s) a = Some k -> name_at (f_heap s) a = c_name k.
Proof. unfold name_at. intros ->. reflexivity. Qed.

Lemma two_meas i : ext_torque e (f_meas s1) i = ext_torque e (f_meas s2) i.
Proof. destruct P as (_ & _ & _ & _ & _ & _ & _ & -> & _). reflexivity. Qed.

Lemma two_cell a1 a2 k1 k2 : In a1 (owners s1) -> In a2 (owners s2) ->
  nth_error (f_heap s1) a1 = Some k1 -> nth_error (f_heap s2) a2 = Some k2 -> shape k1 = shape k2 -> ceq k1 k2.
Proof.
  intros O1 O2 H1 H2 Hs. assert (Hs' := Hs). unfold shape in Hs'. injection Hs' as S1 S2 S3 S4.
  assert (Nm : name_at (f_heap s1) a1 = name_at (f_heap s2) a2).
  { rewrite (name_cell _ _ _ H1), (name_cell _ _ _ H2). exact S1. }
  assert (Tin : forall t, In t (tasks s2) -> In (tl_cstr t) (owners s2)).
  { intros t Ht. right. apply in_or_app. left. apply in_map; exact Ht. }
  assert (Tnm : forall t, In t (tasks s2) -> name_at (f_heap s2) (tl_cstr t) = tl_name t).
  { intros t Ht. destruct (b_task _ B2 t Ht) as ((kd & r & E) & _). eapply info_name; exact E. }
  assert (Vv : nVar s1 = nVar s2) by (unfold nVar; rewrite two_nv, (proj2 two_contacts); reflexivity).
  destruct (owner_name s1 a1 A1 B1 O1) as [(-> & N1)|[(t1 & Ht1 & -> & N1 & _)|(c1 & n & nf & mr & fr & rr & Hc1 & Hok & _ & Hcase)]].
  - (* base *)
    assert (a2 = f_base s2).
    { apply (same_owner s2); auto; [left; reflexivity|]. rewrite <- Nm, N1.
      destruct (ia_base _ A2) as (cc & Hb & _). symmetry.
      eapply info_name. unfold info. rewrite Hb. reflexivity. }
    subst a2.
    destruct (dk_base _ _ D1) as (k & E & G & L & V). assert (k = k1) by congruence. subst k.
    destruct (dk_base _ _ D2) as (k & E' & G' & L' & V'). assert (k = k2) by congruence. subst k.
    destruct (ia_base _ A1) as (cc & Hb & Hcc). unfold shapes in Hb. rewrite nth_error_map, H1 in Hb. simpl in Hb.
    injection Hb as _ Kd Rw Cl.
    split; [exact S1|]. split; [exact S2|]. split.
    + split; [exact S3|]. split; [exact S4|]. intros i j Hi Hj. rewrite Rw in Hi. rewrite Cl, Hcc in Hj.
      rewrite G by assumption. rewrite G' by (rewrite <- ?two_nu, <- ?Vv; assumption). rewrite <- two_nv.
      destruct (j <? f_nv s1) eqn:Ej; [reflexivity|]. apply Nat.ltb_ge in Ej. f_equal. apply two_J; [unfold nVar in Hj; lia|].
      lia.
    + rewrite Kd. split; [rewrite L, L', two_nu; reflexivity|]. intros i Hi. rewrite L in Hi.
      rewrite V by exact Hi. rewrite V' by (rewrite <- two_nu; exact Hi). rewrite two_meas. reflexivity.
  - (* tasks *)
    assert (Cell : forall kd r, info s1 (tl_cstr t1) = Some (tl_name t1, kd, r) -> mcols (c_mat k1) = nVar s1).
    { intros kd r Hi. eapply nk_mat; eauto. }
    destruct (b_task _ B1 t1 Ht1) as ((kd & r & Hi1) & _ & _).
    assert (C1 := Cell _ _ Hi1). clear Cell kd r Hi1.
    destruct P as (_ & _ & _ & _ & Pm & Pf & Pa & _ & _).
    unfold tasks in Ht1. apply in_app_or in Ht1. destruct Ht1 as [Ht1|Ht1]; [|apply in_app_or in Ht1; destruct Ht1 as [Ht1|Ht1]].
    + destruct (two_task _ _ _ Pm Ht1) as (t2 & Ht2 & Ei & En).
      assert (Ht2' : In t2 (tasks s2)) by (unfold tasks; rewrite !in_app_iff; auto).
      assert (a2 = tl_cstr t2).
      { apply (same_owner s2); auto. rewrite <- Nm, N1, Tnm by exact Ht2'. congruence. }
      subst a2. destruct (dk_motion _ _ D1 t1 Ht1) as (k & E & Kk & Oc & Rh). assert (k = k1) by congruence. subst k.
      destruct (dk_motion _ _ D2 t2 Ht2) as (k & E' & Kk' & Oc' & Rh'). assert (k = k2) by congruence. subst k.
      rewrite Ei, <- two_nv in Oc'. rewrite Ei in Rh'. eapply shape_ceq_task; eauto.
    + destruct (two_task _ _ _ Pf Ht1) as (t2 & Ht2 & Ei & En).
      assert (Ht2' : In t2 (tasks s2)) by (unfold tasks; rewrite !in_app_iff; auto).
      assert (a2 = tl_cstr t2).
      { apply (same_owner s2); auto. rewrite <- Nm, N1, Tnm by exact Ht2'. congruence. }
      subst a2. destruct (dk_force _ _ D1 t1 Ht1) as (k & E & Kk & Oc & Rh). assert (k = k1) by congruence. subst k.
      destruct (dk_force _ _ D2 t2 Ht2) as (k & E' & Kk' & Oc' & Rh'). assert (k = k2) by congruence. subst k.
      rewrite Ei, <- two_slot in Oc'. rewrite Ei in Rh'. eapply shape_ceq_task; eauto.
    + destruct (two_task _ _ _ Pa Ht1) as (t2 & Ht2 & Ei & En).
      assert (Ht2' : In t2 (tasks s2)) by (unfold tasks; rewrite !in_app_iff; auto).
      assert (a2 = tl_cstr t2).
      { apply (same_owner s2); auto. rewrite <- Nm, N1, Tnm by exact Ht2'. congruence. }
      subst a2. destruct (dk_act _ _ D1 t1 Ht1) as (k & E & Kk & Bd & G & R). assert (k = k1) by congruence. subst k.
      destruct (dk_act _ _ D2 t2 Ht2) as (k & E' & Kk' & _ & G' & R'). assert (k = k2) by congruence. subst k.
      rewrite Ei in *. set (c := e_task e (tl_task t1)) in *.
      assert (Bi : forall i, act_bias s1 e c i = act_bias s2 e c i).
      { intros i. unfold act_bias. rewrite <- two_nv, <- two_nu. destruct (c_kind c);
          try (apply nsum_ext; intros; rewrite two_meas; reflexivity). rewrite two_meas; reflexivity. }
      split; [exact S1|]. split; [exact S2|]. split.
      * split; [exact S3|]. split; [exact S4|]. intros i j Hi Hj. rewrite C1 in Hj.
        rewrite G by assumption. rewrite G' by (rewrite <- ?S3, <- ?Vv; assumption).
        unfold act_mat. rewrite <- two_nv, <- two_nu. unfold nVar in Hj.
        assert (Hr : c_kind c = CBound -> i < f_nv s1 - f_nu s1).
        { intros Eb. rewrite <- (Bd Eb). exact Hi. }
        destruct (c_kind c); destruct (j <? f_nv s1) eqn:Ej; try reflexivity; apply Nat.ltb_ge in Ej;
          try (apply nsum_ext; intros q Hq; f_equal; apply two_J; lia).
        f_equal. apply two_J; [lia|]. specialize (Hr eq_refl). lia.
      * rewrite <- S2 in Kk'. clear -Kk Kk' R R' Bi.
        destruct (c_kind c), (c_kind k1); simpl in Kk; try discriminate;
          try (eapply veq_shifted; eauto; fail); destruct R as [R1 R2], R' as [R1' R2']; split; eapply veq_shifted; eauto.
  - (* contacts *)
    destruct (two_contact c1 Hc1) as (c2 & Hc2 & Eo & Ei & En & Em).
    destruct Hok as (Hx & I1 & I2 & I3 & _).
    rewrite nth_error_map in Hx. destruct (nth_error (f_objs s1) (cl_obj c1)) as [x|] eqn:Ex; [|discriminate].
    simpl in Hx. unfold oshape in Hx. injection Hx as Xn Xf Xm Xr Xg.
    assert (Ex2 : nth_error (f_objs s2) (cl_obj c2) = Some x).
    { rewrite Eo. destruct P as (_ & _ & _ & Hx & _). rewrite <- Hx; [exact Ex|]. unfold contact_objs. apply in_map; exact Hc1. }
    destruct (b_con _ B2 c2 Hc2) as ([[[[n' nf'] mr'] fr'] rr'] & Hok2).
    destruct Hok2 as (Hx2 & J1 & J2 & J3 & _). rewrite nth_error_map, Ex2 in Hx2. simpl in Hx2.
    unfold oshape in Hx2. injection Hx2 as Yn Yf Ym Yr Yg.
    assert (n' = n) by congruence. subst n'.
    assert (Cin : forall a, In a (con_addrs c2) -> In a (owners s2)).
    { intros a Ha. right. apply in_or_app. right. apply in_flat_map. eauto. }
    destruct (dk_contact _ _ D1 c1 x Hc1 Ex) as ((q1 & Q1 & QO1 & QV1) & (q2 & Q2 & QO2 & QL2 & QU2) & (q3 & Q3 & QO3 & QV3)).
    destruct (dk_contact _ _ D2 c2 x Hc2 Ex2) as ((p1 & P1 & PO1 & PV1) & (p2 & P2 & PO2 & PL2 & PU2) & (p3 & P3 & PO3 & PV3)).
    rewrite Eo in PO1, PV1, PO2, PL2, PU2, PO3, PV3. rewrite Ei in PO2, PO3. rewrite <- two_nv in PO1, PO2, PO3.
    destruct Hcase as [(-> & Nc)|[(-> & Nc)|(-> & Nc)]].
    + assert (a2 = cl_motion c2).
      { apply (same_owner s2); auto; [apply Cin; simpl; auto|]. rewrite <- Nm, Nc, (info_name _ _ _ _ _ J1). congruence. }
      subst a2. assert (q1 = k1) by congruence. assert (p1 = k2) by congruence. subst.
      assert (Kd : c_kind k1 = CEq).
      { unfold info, shapes in I1. rewrite nth_error_map, H1 in I1. simpl in I1. injection I1; auto. }
      split; [exact S1|]. split; [exact S2|]. split; [eapply only_cols_meq; eauto|]. rewrite Kd, QV1, PV1. apply veq_refl.
    + assert (a2 = cl_force c2).
      { apply (same_owner s2); auto; [apply Cin; simpl; auto|]. rewrite <- Nm, Nc, (info_name _ _ _ _ _ J2). congruence. }
      subst a2. assert (q2 = k1) by congruence. assert (p2 = k2) by congruence. subst.
      assert (Kd : c_kind k1 = CIneq).
      { unfold info, shapes in I2. rewrite nth_error_map, H1 in I2. simpl in I2. injection I2; auto. }
      split; [exact S1|]. split; [exact S2|]. split; [eapply only_cols_meq; eauto|]. rewrite Kd, QL2, PL2, QU2, PU2. split; apply veq_refl.
    + assert (a2 = cl_reg c2).
      { apply (same_owner s2); auto; [apply Cin; simpl; auto|]. rewrite <- Nm, Nc, (info_name _ _ _ _ _ J3). congruence. }
      subst a2. assert (q3 = k1) by congruence. assert (p3 = k2) by congruence. subst.
      assert (Kd : c_kind k1 = CEq).
      { unfold info, shapes in I3. rewrite nth_error_map, H1 in I3. simpl in I3. injection I3; auto. }
      split; [exact S1|]. split; [exact S2|]. split; [eapply only_cols_meq; eauto|]. rewrite Kd, QV3, PV3. apply veq_refl.
Qed.


Lemma two_hqp : hqp_eq (hqp s1) (hqp s2).
Proof.
  assert (Sh : hqp_shapes s1 = hqp_shapes s2) by apply P.
  unfold hqp_shapes, hqp in Sh. rewrite !map_map in Sh. unfold hqp_eq, hqp.
  assert (I1 : forall l en, In l (f_hqp s1) -> In en l -> In (snd en) (owners s1)).
  { intros l en Hl He. apply owner_in; auto. apply in_map. apply in_concat. eauto. }
  assert (I2 : forall l en, In l (f_hqp s2) -> In en l -> In (snd en) (owners s2)).
  { intros l en Hl He. apply owner_in; auto. apply in_map. apply in_concat. eauto. }
  revert Sh I1 I2. generalize (f_hqp s2). induction (f_hqp s1) as [|l q IH]; intros [|l' q'] Sh I1 I2; simpl in *; try discriminate; constructor.
  - injection Sh as Sh _. rewrite !map_map in Sh.
    assert (J1 : forall en, In en l -> In (snd en) (owners s1)) by (intros en; apply I1; left; reflexivity).
    assert (J2 : forall en, In en l' -> In (snd en) (owners s2)) by (intros en; apply I2; left; reflexivity).
    clear - Sh J1 J2 A1 B1 D1 A2 B2 D2 P Un. revert l' Sh J2. induction l as [|e1 l IH]; intros [|e2 l'] Sh J2; simpl in *; try discriminate; constructor.
    + injection Sh as Ew Es _. split; [exact Ew|]. simpl.
      destruct (nth_error (f_heap s1) (snd e1)) as [k1|] eqn:E1; destruct (nth_error (f_heap s2) (snd e2)) as [k2|] eqn:E2; simpl in Es; try discriminate; auto.
      apply (two_cell (snd e1) (snd e2)); auto; [apply (J1 e1); auto|apply (J2 e2); auto|congruence].
    + injection Sh as _ _ Sh. apply IH; auto.
  - injection Sh as _ Sh. apply IH; [exact Sh|intros l0 en Hl0; apply (I1 l0 en); right; exact Hl0|intros l0 en Hl0; apply (I2 l0 en); right; exact Hl0].
Qed.

End Two.

(** C10: two histories that end with the same tasks, contacts and measured forces
    present compute the same problem. *)
Theorem compute_history_independent nv na nv' na' (M0 : mat K) H0 M0' H0' asc asc' s t s' q u q' e :
  mrows M0 = nv -> mcols M0 = nv -> vlen H0 = nv ->
  mrows M0' = nv' -> mcols M0' = nv' -> vlen H0' = nv' ->
  reach step (fixed_ok asc) (init nv na M0 H0) s ->
  fixed_ok asc s (OCompute t e) -> step s (OCompute t e) = Ret s' OutUnit ->
  reach step (fixed_ok asc') (init nv' na' M0' H0') q ->
  fixed_ok asc' q (OCompute u e) -> step q (OCompute u e) = Ret q' OutUnit ->
  same_present s' q' -> hqp_eq (hqp s') (hqp q').
Proof.
  intros E1 E2 E3 E4 E5 E6 R1 F1 C1 R2 F2 C2 HP.
  destruct (compute_data _ _ _ _ _ _ _ _ _ E1 E2 E3 R1 F1 C1) as (A & B & S & D).
  destruct (compute_data _ _ _ _ _ _ _ _ _ E4 E5 E6 R2 F2 C2) as (A' & B' & S' & D').
  apply two_hqp with (e := e); auto. apply (is_nu _ S).
Qed.

(** C19: a force task associated with a contact that is present acts on the slot of
    that contact only. *)
Lemma find_contact_eq s c : invA s -> invB s -> In c (f_contacts s) -> find_contact s (cl_name s c) = Some c.
Proof.
  intros HA HB Hc. unfold find_contact. assert (T := take_contact_names s (cl_name s c) HA HB).
  destruct (take_contact s (cl_name s c) (f_contacts s)) as [[c' r]|].
  - destruct T as (_ & Hc' & En). f_equal.
    apply (NoDup_map_inj (cl_name s) (f_contacts s)); auto. apply contact_names_nodup; auto.
  - destruct T as (_ & Hn). exfalso. apply Hn. unfold contact_names. apply in_map; exact Hc.
Qed.

Theorem force_task_own_slot nv na (M0 : mat K) H0 asc s t e s' f c :
  mrows M0 = nv -> mcols M0 = nv -> vlen H0 = nv ->
  reach step (fixed_ok asc) (init nv na M0 H0) s ->
  fixed_ok asc s (OCompute t e) -> step s (OCompute t e) = Ret s' OutUnit ->
  In f (f_forces s') -> In c (f_contacts s') -> cl_name s' c = asc (tl_task f) -> asc (tl_task f) <> "" ->
  task_filled s' f (f_nv s' + cl_index c) (cl_nforce s' c) (e_task e (tl_task f)).
Proof.
  intros E1 E2 E3 R1 F1 C1 Hf Hc Hn He.
  destruct (compute_data _ _ _ _ _ _ _ _ _ E1 E2 E3 R1 F1 C1) as (A & B & S & D).
  assert (G := dk_force _ _ D f Hf).
  assert (Ea : e_assoc e (tl_task f) = asc (tl_task f)) by (destruct F1 as (_ & _ & X); apply X).
  rewrite Ea in G. unfold force_slot in G. apply String.eqb_neq in He. rewrite He in G.
  rewrite <- Hn in G. rewrite find_contact_eq in G by assumption. exact G.
Qed.

End Hist.
