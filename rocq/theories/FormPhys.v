(** Physical meaning of the computed problem over the reals. *)
From Coq Require Import String List Arith Bool ZArith Lia Permutation Reals Lra.
From Verif Require Import Scalar Outcome Linalg Constraint Formulation ListUtil FormSpec FormDataSpec FormPhysSpec RSum FormInv FormInvB FormInvC FormOps FormSafe FormSafe2 FormData FormZero FormHist.
Import ListNotations.
Open Scope string_scope.
Open Scope list_scope.
Open Scope nat_scope.

#[local] Opaque nsum.

Section EnvSame.
Context {K : num}.
Implicit Types (s : fstate K).

Lemma announced_same s s' t kd r : shapes s' = shapes s -> announced s' t kd r -> announced s t kd r.
Proof.
  intros E (c & Hc & Hk & Hr). unfold announced.
  assert (X : nth_error (shapes s') (tl_cstr t) = Some (shape c)) by (unfold shapes; rewrite nth_error_map, Hc; reflexivity).
  rewrite E in X. apply nth_shape in X. destruct X as (c' & Hc' & Hs). exists c'. unfold shape in Hs.
  injection Hs as _ -> -> _. auto.
Qed.

Lemma comp_fill_obs s e s' : comp_fill s e = Some s' -> f_objs s' = f_objs s /\ f_meas s' = f_meas s /\ f_dec s' = false
  /\ f_t s' = f_t s /\ f_trans s' = f_trans s.
Proof.
  unfold comp_fill. intros H. repeat (ob H). injection H as <-.
  assert (R1 := ofold_refilled _ _ _ _ (fun s b s' => comp_contact_refilled s e b s') E).
  assert (R2 : refilled (w_hfext a a0) a2).
  { unfold comp_base in E2. ob E2. injection E2 as <-. apply refilled_heap. }
  assert (R3 := ofold_refilled _ _ _ _ (comp_motion_refilled e) E3).
  assert (R4 := ofold_refilled _ _ _ _ (comp_force_refilled e) E4).
  assert (R5 := ofold_refilled _ _ _ _ (comp_act_refilled e _) E5).
  rewrite R5, R4, R3, R2, R1. auto 10.
Qed.

Lemma env_ok_same s s' e : same s s' -> f_objs s' = f_objs s -> f_meas s' = f_meas s -> env_ok s e -> env_ok s' e.
Proof.
  intros HS Ho Hm (E1 & E2 & E3 & E4 & E5 & E6 & E7 & E8). unfold env_ok.
  assert (Fs : forall n, force_size s' n = force_size s n).
  { intros n. unfold force_size, force_slot. rewrite (sm_nv _ _ HS), (sm_k _ _ HS). unfold find_contact.
    rewrite (sm_con _ _ HS), (take_contact_objs s s') by exact Ho.
    destruct (String.eqb n ""); [reflexivity|]. destruct (take_contact s n (f_contacts s)) as [[c r]|]; [|reflexivity].
    unfold cl_nforce, cobj_at. rewrite Ho. reflexivity. }
  rewrite (sm_nv _ _ HS), (sm_nu _ _ HS), (sm_con _ _ HS), (sm_mot _ _ HS), (sm_for _ _ HS), (sm_act _ _ HS), Ho, Hm.
  repeat (split; [assumption|]). split; [|split].
  - intros t kd r Ht Ha. eapply E6; eauto. eapply announced_same; [apply (sm_sh _ _ HS)|exact Ha].
  - intros t kd r Ht Ha. rewrite Fs. eapply E7; eauto. eapply announced_same; [apply (sm_sh _ _ HS)|exact Ha].
  - intros t kd r Ht Ha. eapply E8; eauto. eapply announced_same; [apply (sm_sh _ _ HS)|exact Ha].
Qed.

Lemma compute_env dbg s t e s' asc : fixed_ok dbg asc s (OCompute t e) -> step dbg s (OCompute t e) = Ret s' OutUnit -> env_ok s' e.
Proof.
  intros (_ & (_ & He) & _) Hs. destruct (compute_inv _ _ _ _ _ Hs) as (s1 & R & C).
  destruct (comp_fill_obs _ _ _ C) as (Ho & Hm & _).
  eapply env_ok_same; [eapply comp_fill_same; exact C|exact Ho|exact Hm|]. apply He; exact R.
Qed.
End EnvSame.

Section Phys.
Variables (s : fstate Rnum) (e : env Rnum).
Hypotheses (A : invA s) (B : invB s) (S : invS s) (D : data_ok s e) (E : env_ok s e).

Lemma ext_meas i : ext_torque e (f_meas s) i = meas_torque s e i.
Proof.
  unfold ext_torque, meas_torque.
  assert (G : forall l (a : R), fold_left (fun acc (m : nat * string) => (acc + vget (e_meas e (fst m)) i)%num) l (a : car Rnum)
    = (a + lsum (fun m : nat * string => vget (e_meas e (fst m)) i) l)%R).
  { induction l as [|m l IH]; intros a; simpl; [unfold lsum; simpl; lra|]. rewrite IH, lsum_cons. simpl. lra. }
  rewrite G. simpl. lra.
Qed.

Lemma contact_obj c : In c (f_contacts s) -> exists x, nth_error (f_objs s) (cl_obj c) = Some x /\ cl_nforce s c = co_nforce x.
Proof.
  intros Hc. assert (L := ia_objs _ A). rewrite Forall_forall in L. specialize (L c Hc).
  destruct (nth_error (f_objs s) (cl_obj c)) as [x|] eqn:Ex; [|apply nth_error_None in Ex; lia].
  exists x. split; auto. unfold cl_nforce, cobj_at. rewrite Ex. reflexivity.
Qed.

(** J_c^T f summed row by row is the sum over the contacts. *)
Lemma contact_rows x i : i < f_nv s ->
  rsum (f_k s) (fun q => mget (f_Jc s) q i * x (f_nv s + q)%nat)%R = contact_torque s e x i.
Proof.
  intros Hi. rewrite (tiles_rsum _ _ _ _ (ia_tile _ A)), rsum_0. unfold contact_torque, slots.
  rewrite lsum_map. simpl. rewrite Rplus_0_l. apply lsum_ext. intros c Hc.
  destruct (contact_obj c Hc) as (o & Ho & Hn). apply rsum_ext. intros r Hr.
  rewrite (dk_J _ _ D c o) by (auto; lia). unfold force_of. rewrite Nat.add_assoc. reflexivity.
Qed.

Lemma dyn_row x i : i < f_nv s ->
  rsum (nVar s) (fun j => (if j <? f_nv s then mget (e_mass e) i j else - mget (f_Jc s) (j - f_nv s) i) * x j)%R
  = (needed_torque s e x i - (vget (e_nle e) i - meas_torque s e i))%R.
Proof.
  intros Hi. unfold nVar. rewrite rsum_app.
  rewrite (rsum_ext (f_nv s) _ (fun j => mget (e_mass e) i j * x j)%R).
  2:{ intros j Hj. apply Nat.ltb_lt in Hj. rewrite Hj. reflexivity. }
  rewrite (rsum_ext (f_k s) _ (fun q => - (mget (f_Jc s) q i * x (f_nv s + q)%nat))%R).
  2:{ intros q Hq. replace (f_nv s + q <? f_nv s) with false by (symmetry; apply Nat.ltb_ge; lia).
      replace (f_nv s + q - f_nv s) with q by lia. lra. }
  rewrite rsum_opp, contact_rows by exact Hi. unfold needed_torque. lra.
Qed.

Lemma only_row (M m : mat Rnum) j0 n i x : only_cols M j0 n m -> j0 + n <= mcols M -> i < mrows M ->
  rsum (mcols M) (fun j => mget M i j * x j)%R = rsum n (fun r => mget m i r * x (j0 + r)%nat)%R.
Proof.
  intros H Hc Hi. rewrite <- (rsum_window (mcols M) j0 n (mget m i) x Hc). apply rsum_ext.
  intros j Hj. rewrite H by assumption. reflexivity.
Qed.

Lemma sized_cell a k : nth_error (f_heap s) a = Some k -> sized k.
Proof. apply sized_nth. apply (is_cells _ S). Qed.
Lemma kind_cell a k : nth_error (f_heap s) a = Some k -> c_kind k <> CBound.
Proof.
  intros H Hk. assert (F := ia_kind _ A). rewrite Forall_forall in F. apply (F (shape k)); [|exact Hk].
  unfold shapes. apply in_map. eapply nth_error_In; eauto.
Qed.
Lemma sized_eq k : sized (K:=Rnum) k -> c_kind k = CEq -> vlen (c_vec k) = mrows (c_mat k).
Proof.
  unfold sized, crows. intros H Hk. rewrite Hk in H. destruct (Nat.eqb_spec (mrows (c_mat k)) (vlen (c_vec k))); [auto|discriminate].
Qed.
Lemma sized_in k : sized (K:=Rnum) k -> c_kind k = CIneq -> vlen (c_lb k) = mrows (c_mat k) /\ vlen (c_ub k) = mrows (c_mat k).
Proof.
  unfold sized, crows. intros H Hk. rewrite Hk in H.
  destruct (Nat.eqb_spec (mrows (c_mat k)) (vlen (c_lb k))); [|discriminate].
  destruct (Nat.eqb_spec (mrows (c_mat k)) (vlen (c_ub k))); [auto|discriminate].
Qed.
Lemma owner_cols a k : In a (owners s) -> nth_error (f_heap s) a = Some k -> mcols (c_mat k) = nVar s.
Proof.
  intros Ho Hk. apply (owner_in s a B) in Ho. apply in_map_iff in Ho. destruct Ho as (en & <- & Hen).
  assert (Fc := ia_cols _ A). rewrite Forall_forall in Fc. destruct (Fc _ Hen) as (nn & kd & rr & Hs).
  apply nth_shape in Hs. destruct Hs as (k' & Hk' & Hs). assert (k' = k) by congruence. subst k'.
  unfold shape in Hs. injection Hs; auto.
Qed.

(** Satisfaction of the base dynamics constraint. *)
Lemma base_sat k x : nth_error (f_heap s) (f_base s) = Some k ->
  (sat k x <-> forall i, i < f_nu s -> needed_torque s e x i = 0%R).
Proof.
  intros Hk. destruct (dk_base _ _ D) as (k' & Hk' & G & L & V). assert (k' = k) by congruence. subst k'.
  destruct (ia_base _ A) as (c & Hb & Hc). unfold shapes in Hb. rewrite nth_error_map, Hk in Hb. simpl in Hb. injection Hb as _ Kd Rw Cl.
  assert (P : forall i, i < f_nu s -> (lhs k x i = vget (c_vec k) i <-> needed_torque s e x i = 0%R)).
  { intros i Hi. assert (Hv : i < f_nv s) by (assert (X := is_nu _ S); lia).
    unfold lhs. rewrite Kd, Cl, Hc, V by exact Hi.
    rewrite (rsum_ext (nVar s) _ (fun j => (if j <? f_nv s then mget (e_mass e) i j else - mget (f_Jc s) (j - f_nv s) i) * x j)%R).
    2:{ intros j Hj. rewrite G by assumption. reflexivity. }
    rewrite dyn_row, ext_meas by exact Hv. simpl. split; intros; lra. }
  unfold sat. rewrite Kd, L. split; intros H i Hi; specialize (H i Hi); apply P; auto.
Qed.

(** A task constraint placed in a window of columns. *)
Lemma task_row t j0 n c k x kd r : announced s t kd r -> task_data_ok kd r n c -> j0 + n <= nVar s ->
  In (tl_cstr t) (owners s) ->
  task_filled s t j0 n c -> nth_error (f_heap s) (tl_cstr t) = Some k ->
  forall i, i < r -> lhs k x i = lhs c (fun q => x (j0 + q)) i.
Proof.
  intros (k0 & Hk0 & Ek & Er) (Tk & Tr & Tc) Hn Ho (k' & Hk' & Kk & Oc & Rh) Hk.
  assert (k' = k) by congruence. assert (k0 = k) by congruence. subst k' k0.
  assert (Cl := owner_cols _ _ Ho Hk). assert (NB := kind_cell _ _ Hk).
  intros i Hi. unfold lhs. destruct (c_kind k) eqn:Kd; try contradiction;
    (rewrite (only_row _ _ _ _ i x Oc) by (rewrite ?Cl, ?Er; assumption));
    unfold block_of; destruct (c_kind c) eqn:Kc; try rewrite Tc; try reflexivity;
    rewrite Tc in Hi; rewrite (rsum_single n i) by
      (try exact Hi; intros q Hq Hd; simpl; apply Nat.eqb_neq in Hd; rewrite (Nat.eqb_sym i q), Hd; lra);
    simpl; rewrite Nat.eqb_refl; lra.
Qed.
Lemma task_sat t j0 n c k x kd r : announced s t kd r -> task_data_ok kd r n c -> j0 + n <= nVar s ->
  In (tl_cstr t) (owners s) ->
  task_filled s t j0 n c -> nth_error (f_heap s) (tl_cstr t) = Some k ->
  (sat k x <-> sat c (fun q => x (j0 + q))).
Proof.
  intros Ha Hd Hn Ho Hf Hk. assert (Row := task_row t j0 n c k x kd r Ha Hd Hn Ho Hf Hk).
  destruct Ha as (k0 & Hk0 & Ek & Er). destruct Hd as (Tk & Tr & Tc). destruct Hf as (k' & Hk' & Kk & Oc & Rh).
  assert (k' = k) by congruence. assert (k0 = k) by congruence. subst k' k0.
  assert (Sz := sized_cell _ _ Hk). assert (NB := kind_cell _ _ Hk).
  unfold sat. destruct (c_kind k) eqn:Kd; try contradiction.
  - destruct (c_kind c) eqn:Kc; try discriminate.
    assert (Rv := sized_eq _ Sz Kd). unfold same_rhs in Rh. rewrite Kc in Rh.
    rewrite <- Rh. split; intros H i Hi; specialize (H i Hi); rewrite Row in * by lia; exact H.
  - destruct (sized_in _ Sz Kd) as [R1 R2]. unfold same_rhs in Rh.
    destruct (c_kind c) eqn:Kc; try discriminate; destruct Rh as [Rl Ru]; rewrite <- Rl, <- Ru;
      split; intros H i Hi; specialize (H i Hi); rewrite Row in * by lia; exact H.
Qed.

(** An actuation task constraint is the task's own constraint on the torques. *)
Lemma act_row t k x kd r : In t (f_acts s) -> announced s t kd r -> nth_error (f_heap s) (tl_cstr t) = Some k ->
  forall i, i < r -> lhs k x i = (lhs (e_task e (tl_task t)) (fun q => needed_torque s e x (f_nu s + q)) i - act_bias s e (e_task e (tl_task t)) i)%R.
Proof.
  intros Ht Ha Hk. destruct E as (_ & _ & _ & _ & _ & _ & _ & Ea).
  assert (Td := Ea _ _ _ Ht Ha). clear Ea. destruct (dk_act _ _ D t Ht) as (k' & Hk' & Kk & Bd & G & Rh).
  set (c := e_task e (tl_task t)) in *. assert (k' = k) by congruence. subst k'.
  destruct Ha as (k0 & Hk0 & Ek & Er). assert (k0 = k) by congruence. subst k0.
  destruct Td as (Tk & Tr & Tc).
  assert (Ho : In (tl_cstr t) (owners s)).
  { right. apply in_or_app. left. apply in_map. unfold tasks. rewrite !in_app_iff. auto. }
  assert (Cl := owner_cols _ _ Ho Hk). assert (Sz := sized_cell _ _ Hk). assert (NB := kind_cell _ _ Hk).
  assert (Nu := is_nu _ S).
  intros i Hi. unfold lhs at 1.
    assert (Q : rsum (mcols (c_mat k)) (fun j => mget (c_mat k) i j * x j)%R
      = (lhs c (fun q => needed_torque s e x (f_nu s + q)) i - act_bias s e c i)%R).
    { rewrite Cl. rewrite (rsum_ext (nVar s) _ (fun j => act_mat s e c i j * x j)%R).
      2:{ intros j Hj. rewrite G by (rewrite ?Er; assumption). reflexivity. }
      unfold act_mat, act_bias, lhs.
      assert (Lin : c_kind c <> CBound -> mcols (c_mat c) = f_nv s - f_nu s ->
        rsum (nVar s) (fun j => (if (j <? f_nv s)%nat
           then rsum (f_nv s - f_nu s)%nat (fun q => mget (c_mat c) i q * (if (j <? f_nv s)%nat then mget (e_mass e) (f_nu s + q)%nat j else mget (f_Jc s) (j - f_nv s)%nat (f_nu s + q)%nat))
           else rsum (f_nv s - f_nu s)%nat (fun q => - mget (c_mat c) i q * (if (j <? f_nv s)%nat then mget (e_mass e) (f_nu s + q)%nat j else mget (f_Jc s) (j - f_nv s)%nat (f_nu s + q)%nat))) * x j)%R
        = (rsum (mcols (c_mat c)) (fun q => mget (c_mat c) i q * needed_torque s e x (f_nu s + q)%nat)
           - rsum (f_nv s - f_nu s)%nat (fun q => mget (c_mat c) i q * (vget (e_nle e) (f_nu s + q)%nat - ext_torque e (f_meas s) (f_nu s + q)%nat)))%R).
      { intros _ Hc. rewrite Hc.
        transitivity (rsum (nVar s) (fun j => rsum (f_nv s - f_nu s) (fun q => mget (c_mat c) i q *
             ((if j <? f_nv s then mget (e_mass e) (f_nu s + q) j else - mget (f_Jc s) (j - f_nv s) (f_nu s + q)) * x j)))%R).
        { apply rsum_ext. intros j Hj. destruct (j <? f_nv s); rewrite <- rsum_scal_r; apply rsum_ext; intros q Hq; simpl; ring. }
        rewrite rsum_swap, <- rsum_minus. apply rsum_ext. intros q Hq.
        rewrite rsum_scal, dyn_row by lia. rewrite ext_meas. simpl. ring. }
      destruct (c_kind c) eqn:Kc; [apply Lin; congruence|apply Lin; congruence|].
      rewrite (rsum_ext _ _ (fun j => (if j <? f_nv s then mget (e_mass e) (f_nu s + i) j else - mget (f_Jc s) (j - f_nv s) (f_nu s + i)) * x j)%R).
      2:{ intros j Hj. destruct (j <? f_nv s); reflexivity. }
      rewrite dyn_row by lia. rewrite ext_meas. reflexivity. }
    destruct (c_kind k); [exact Q|exact Q|contradiction].
Qed.
Lemma act_sat t k x kd r : In t (f_acts s) -> announced s t kd r -> nth_error (f_heap s) (tl_cstr t) = Some k ->
  (sat k x <-> sat (e_task e (tl_task t)) (fun q => needed_torque s e x (f_nu s + q))).
Proof.
  intros Ht Ha Hk. assert (Row := act_row t k x kd r Ht Ha Hk). destruct E as (_ & _ & _ & _ & _ & _ & _ & Ea).
  assert (Td := Ea _ _ _ Ht Ha). clear Ea. destruct (dk_act _ _ D t Ht) as (k' & Hk' & Kk & Bd & G & Rh).
  set (c := e_task e (tl_task t)) in *. assert (k' = k) by congruence. subst k'.
  destruct Ha as (k0 & Hk0 & Ek & Er). assert (k0 = k) by congruence. subst k0.
  destruct Td as (Tk & Tr & Tc). assert (Sz := sized_cell _ _ Hk). assert (NB := kind_cell _ _ Hk).
  unfold sat. destruct (c_kind k) eqn:Kd; try contradiction.
  - destruct (c_kind c) eqn:Kc; try discriminate. destruct Rh as [Rl Rg].
    assert (Rv := sized_eq _ Sz Kd).
    split; intros H i Hi.
    + specialize (H i ltac:(lia)). rewrite Row, Rg in H by lia. simpl in H. lra.
    + specialize (H i ltac:(lia)). rewrite Row, Rg by lia. simpl. lra.
  - destruct (sized_in _ Sz Kd) as [R1 R2].
    destruct (c_kind c) eqn:Kc; try discriminate; destruct Rh as [[Ll Lg] [Ul Ug]];
      (split; intros H i Hi;
       [specialize (H i ltac:(lia)); rewrite Row, Lg, Ug in H by lia; simpl in H; lra
       |specialize (H i ltac:(lia)); rewrite Row, Lg, Ug by lia; simpl; lra]).
Qed.

Lemma task_announced t : In t (tasks s) -> exists kd r, announced s t kd r.
Proof.
  intros Ht. destruct (b_task _ B t Ht) as ((kd & r & Hi) & _). unfold info in Hi.
  destruct (nth_error (shapes s) (tl_cstr t)) as [[[[n kd'] r'] c]|] eqn:Hs; [|discriminate].
  apply nth_shape in Hs. destruct Hs as (k & Hk & Hs). unfold shape in Hs. injection Hs as _ <- <- _.
  exists (c_kind k), (mrows (c_mat k)). exists k. auto.
Qed.

Lemma slot_le n : fst (force_slot s n) + snd (force_slot s n) <= nVar s.
Proof.
  unfold force_slot, nVar. destruct (String.eqb n ""); simpl; [lia|].
  destruct (find_contact s n) as [c|] eqn:Ec; simpl; [|lia].
  unfold find_contact in Ec. destruct (take_contact s n (f_contacts s)) as [[c' r]|] eqn:Et; [|discriminate].
  injection Ec as ->. apply take_contact_spec in Et. destruct Et as (l1 & l2 & El & _).
  assert (Hc : In c (f_contacts s)) by (rewrite El; apply in_elt).
  assert (T := ia_tile _ A). assert (H : In (cl_index c, cl_nforce s c) (slots s)) by (unfold slots; apply in_map_iff; eauto).
  assert (G : forall l a b, tiles a l b -> forall o m, In (o, m) l -> a <= o /\ o + m <= b).
  { induction l as [|[o m] l IH]; simpl; intros a b Ht o' m' Hin; [contradiction|].
    destruct Ht as [-> Ht]. assert (a + m <= b).
    { clear -Ht. revert Ht. generalize (a + m). induction l as [|[o' m'] l IH]; simpl; intros z Hz; [lia|].
      destruct Hz as [-> Hz]. apply IH in Hz. lia. }
    destruct Hin as [X|Hin]; [injection X as <- <-; lia|]. specialize (IH _ _ Ht _ _ Hin). lia. }
  specialize (G _ _ _ T _ _ H). lia.
Qed.

Lemma contact_fits c : In c (f_contacts s) -> f_nv s + cl_index c + cl_nforce s c <= nVar s.
Proof.
  intros Hc. assert (N : cl_name s c = "" \/ cl_name s c <> "") by (destruct (String.eqb_spec (cl_name s c) ""); auto).
  assert (G := slot_le (cl_name s c)). unfold force_slot in G.
  assert (F := find_contact_eq s c A B Hc).
  assert (T := ia_tile _ A). assert (H : In (cl_index c, cl_nforce s c) (slots s)) by (unfold slots; apply in_map_iff; eauto).
  clear -T H. unfold nVar. revert T H. generalize (slots s) (cl_index c) (cl_nforce s c). intros l.
  assert (Q : forall l a b, tiles a l b -> (forall o m, In (o, m) l -> o + m <= b) /\ a <= b).
  { clear. induction l as [|[o m] l IH]; simpl; intros a b Ht; [split; [contradiction|lia]|].
    destruct Ht as [-> Ht]. destruct (IH _ _ Ht) as [I1 I2]. split; [|lia].
    intros o' m' [X|Hin]; [injection X as <- <-; lia|eauto]. }
  intros i n T H. destruct (Q _ _ _ T) as [Q1 _]. specialize (Q1 _ _ H). lia.
Qed.

Lemma con_cells c n nf mr fr rr : con_ok s c (n, nf, mr, fr, rr) ->
  exists x km kf, nth_error (f_objs s) (cl_obj c) = Some x /\ oshape x = (n, nf, mr, fr, rr) /\
    nth_error (f_heap s) (cl_motion c) = Some km /\ c_kind km = CEq /\ mrows (c_mat km) = mr /\
    nth_error (f_heap s) (cl_force c) = Some kf /\ c_kind kf = CIneq /\ mrows (c_mat kf) = fr.
Proof.
  intros (Hx & I1 & I2 & _). rewrite nth_error_map in Hx. destruct (nth_error (f_objs s) (cl_obj c)) as [x|] eqn:Ex; [|discriminate].
  cbn [option_map] in Hx. assert (Hx' : oshape x = (n, nf, mr, fr, rr)) by congruence.
  assert (Q : forall a nn kd rr', info s a = Some (nn, kd, rr') -> exists k, nth_error (f_heap s) a = Some k /\ c_kind k = kd /\ mrows (c_mat k) = rr').
  { intros a nn kd rr' Hi. unfold info in Hi. destruct (nth_error (shapes s) a) as [[[[n' kd'] r'] c']|] eqn:Hs; [|discriminate].
    injection Hi as -> -> ->. apply nth_shape in Hs. destruct Hs as (k & Hk & Hs). unfold shape in Hs. injection Hs as _ <- <- _. eauto. }
  destruct (Q _ _ _ _ I1) as (km & M1 & M2 & M3). destruct (Q _ _ _ _ I2) as (kf & F1 & F2 & F3).
  exists x, km, kf. split; [reflexivity|]. repeat (split; [assumption|]); assumption.
Qed.

Lemma contact_motion_row c k x : In c (f_contacts s) -> nth_error (f_heap s) (cl_motion c) = Some k ->
  c_kind k = CEq /\ c_vec k = snd (e_cmotion e (cl_obj c)) /\ mrows (c_mat k) = vlen (snd (e_cmotion e (cl_obj c))) /\
  forall i, i < vlen (snd (e_cmotion e (cl_obj c))) -> lhs k x i = rsum (mcols (fst (e_cmotion e (cl_obj c)))) (fun j => mget (fst (e_cmotion e (cl_obj c))) i j * x j)%R.
Proof.
  intros Hc Hk. destruct (b_con _ B c Hc) as ([[[[n nf] mr] fr] rr] & Hok).
  destruct (con_cells _ _ _ _ _ _ Hok) as (o & km & kf & Ho & Hs & M1 & M2 & M3 & _).
  assert (km = k) by congruence. subst km. unfold oshape in Hs. injection Hs as S1 S2 S3 S4 S5.
  destruct (dk_contact _ _ D c o Hc Ho) as ((k' & Hk' & Oc & V) & _). assert (k' = k) by congruence. subst k'.
  destruct E as (_ & _ & _ & Ec & _). specialize (Ec c o Hc Ho). unfold contact_data_ok in Ec.
  destruct (e_cmotion e (cl_obj c)) as [Am bm]. destruct (e_creg e (cl_obj c)) as [Cm dm]. simpl in *.
  destruct Ec as (C1 & C2 & C3 & _).
  assert (Ow : In (cl_motion c) (owners s)).
  { right. apply in_or_app. right. apply in_flat_map. exists c. simpl; auto. }
  assert (Cl := owner_cols _ _ Ow Hk). split; [exact M2|]. split; [exact V|]. split; [congruence|].
  intros i Hi. unfold lhs. rewrite M2, C2, (only_row _ _ _ _ i x Oc); [reflexivity|rewrite Cl; unfold nVar; lia|lia].
Qed.
Lemma contact_motion_sat c k x : In c (f_contacts s) -> nth_error (f_heap s) (cl_motion c) = Some k ->
  (sat k x <-> eq_holds (fst (e_cmotion e (cl_obj c))) (snd (e_cmotion e (cl_obj c))) x).
Proof.
  intros Hc Hk. destruct (contact_motion_row c k x Hc Hk) as (Kd & V & _ & Row). unfold sat, eq_holds. rewrite Kd, V.
  split; intros H i Hi; specialize (H i Hi); rewrite Row in * by exact Hi; exact H.
Qed.

Lemma contact_force_sat c o k x : In c (f_contacts s) -> nth_error (f_objs s) (cl_obj c) = Some o ->
  nth_error (f_heap s) (cl_force c) = Some k ->
  (sat k x <-> let '(Bm, lb, ub) := e_cforce e (cl_obj c) (co_fmin o) (co_fmax o) in in_holds Bm lb ub (force_of s c x)).
Proof.
  intros Hc Ho Hk. destruct (b_con _ B c Hc) as ([[[[n nf] mr] fr] rr] & Hok).
  destruct (con_cells _ _ _ _ _ _ Hok) as (o' & km & kf & Ho' & Hs & _ & _ & _ & F1 & F2 & F3).
  assert (o' = o) by congruence. subst o'.
  assert (kf = k) by congruence. subst kf. unfold oshape in Hs. injection Hs as S1 S2 S3 S4 S5.
  destruct (dk_contact _ _ D c o Hc Ho) as (_ & (k' & Hk' & Oc & Vl & Vu) & _). assert (k' = k) by congruence. subst k'.
  destruct E as (_ & _ & _ & Ec & _). specialize (Ec c o Hc Ho). unfold contact_data_ok in Ec.
  destruct (e_cmotion e (cl_obj c)) as [Am bm]. destruct (e_creg e (cl_obj c)) as [Cm dm].
  destruct Ec as (_ & _ & _ & _ & _ & Cf & _). specialize (Cf (co_fmin o) (co_fmax o)).
  destruct (e_cforce e (cl_obj c) (co_fmin o) (co_fmax o)) as [[Bm lb] ub]. simpl in *.
  destruct Cf as (C1 & C2 & C3 & C4).
  assert (Ow : In (cl_force c) (owners s)).
  { right. apply in_or_app. right. apply in_flat_map. exists c. simpl; auto. }
  assert (Cl := owner_cols _ _ Ow Hk). assert (Fit := contact_fits c Hc).
  assert (Nf : cl_nforce s c = co_nforce o) by (unfold cl_nforce, cobj_at; rewrite Ho; reflexivity).
  unfold sat, in_holds, lhs, force_of. rewrite F2, Vl, Vu, C2, Cl.
  assert (Row : forall i, i < vlen lb -> rsum (nVar s) (fun j => mget (c_mat k) i j * x j)%R
     = rsum (co_nforce o) (fun r => mget Bm i r * x (f_nv s + cl_index c + r)%nat)%R).
  { intros i Hi. rewrite <- Cl, (only_row _ _ _ _ i x Oc); [reflexivity|rewrite Cl; lia|lia]. }
  split; intros H i Hi; specialize (H i Hi); rewrite Row in * by exact Hi; exact H.
Qed.

Lemma hard_addr x : hard_feasible s x <-> forall a k, in_level s 0 a -> nth_error (f_heap s) a = Some k -> sat k x.
Proof.
  unfold hard_feasible. assert (L := ia_lev _ A).
  destruct (f_hqp s) as [|l0 ls] eqn:Eh; [simpl in L; lia|].
  assert (E0 : nth 0 (hqp s) [] = map (deref s) l0) by (unfold hqp; rewrite Eh; reflexivity).
  rewrite E0. unfold in_level. rewrite Eh. split.
  - intros H a k (l & Hl & Ha) Hk. simpl in Hl. injection Hl as <-. apply in_map_iff in Ha. destruct Ha as (en & <- & Hen).
    apply (H (deref s en)); [apply in_map; exact Hen|]. exact Hk.
  - intros H en c Hen Hc. apply in_map_iff in Hen. destruct Hen as (e0 & <- & He0). simpl in Hc.
    apply (H (snd e0) c); [|exact Hc]. exists l0. split; [reflexivity|]. apply in_map; exact He0.
Qed.

Lemma hard_motion_addr c : In c (f_contacts s) -> (hard_motion s c <-> in_level s 0 (cl_motion c)).
Proof.
  intros Hc. destruct (b_con _ B c Hc) as ([[[[n nf] mr] fr] rr] & Hok).
  destruct (con_cells _ _ _ _ _ _ Hok) as (o & km & kf & Ho & Hs & M1 & _).
  unfold oshape in Hs. injection Hs as S1 S2 S3 S4 S5.
  assert (Nc : cl_name s c = n) by (unfold cl_name, cobj_at; rewrite Ho; exact S1).
  destruct Hok as (_ & I1 & _ ).
  assert (L := ia_lev _ A). unfold hard_motion, in_level.
  destruct (f_hqp s) as [|l0 ls] eqn:Eh; [simpl in L; lia|].
  assert (E0 : nth 0 (hqp s) [] = map (deref s) l0) by (unfold hqp; rewrite Eh; reflexivity). rewrite E0, Nc.
  assert (Nm := info_name _ _ _ _ _ I1).
  assert (Ow : In (cl_motion c) (owners s)).
  { right. apply in_or_app. right. apply in_flat_map. exists c. simpl; auto. }
  split.
  - intros (en & Hen & Hn). apply in_map_iff in Hen. destruct Hen as (e0 & <- & He0).
    exists l0. split; [reflexivity|]. apply in_map_iff. exists e0. split; [|exact He0].
    apply (same_owner s); auto.
    + apply owner_in; [exact B|]. rewrite Eh. simpl. rewrite map_app. apply in_or_app. left. apply in_map; exact He0.
    + rewrite Nm. assert (Hn' : option_map c_name (nth_error (f_heap s) (snd e0)) = Some (n ++ "_motion_task")%string) by exact Hn.
      unfold name_at. destruct (nth_error (f_heap s) (snd e0)); [injection Hn' as Hn'; exact Hn'|discriminate].
  - intros (l & Hl & Ha). simpl in Hl. injection Hl as <-. apply in_map_iff in Ha. destruct Ha as (e0 & Ee & He0).
    exists (deref s e0). split; [apply in_map; exact He0|].
    change (option_map c_name (nth_error (f_heap s) (snd e0)) = Some (n ++ "_motion_task")%string).
    rewrite Ee. unfold name_at in Nm. rewrite M1 in *. simpl. f_equal. exact Nm.
Qed.

Theorem hard_physical x : hard_feasible s x <-> physical s e x.
Proof.
  rewrite hard_addr. split.
  - intros H.
    assert (Cell : forall a, In a (owners s) -> exists k, nth_error (f_heap s) a = Some k).
    { intros a Ha. apply (owner_in s a B) in Ha. apply in_map_iff in Ha. destruct Ha as (en & <- & Hen).
      assert (Fc := ia_cols _ A). rewrite Forall_forall in Fc. destruct (Fc _ Hen) as (nn & kd & rr & Hs).
      apply nth_shape in Hs. destruct Hs as (k & Hk & _). eauto. }
    assert (Task : forall t, In t (tasks s) -> tl_prio t = 0 -> exists k, nth_error (f_heap s) (tl_cstr t) = Some k /\ sat k x).
    { intros t Ht Hp. destruct (b_task _ B t Ht) as (_ & _ & Hl). rewrite Hp in Hl.
      destruct (Cell (tl_cstr t)) as (k & Hk); [right; apply in_or_app; left; apply in_map; exact Ht|]. eauto. }
    constructor.
    + destruct (ia_base _ A) as (c & Hb & _). apply nth_shape in Hb. destruct Hb as (k & Hk & _).
      apply (base_sat k x Hk). apply (H (f_base s)); auto. exact (b_base _ B).
    + intros c Hc Hh. apply hard_motion_addr in Hh; [|exact Hc].
      destruct (Cell (cl_motion c)) as (k & Hk). { right. apply in_or_app. right. apply in_flat_map. exists c. simpl; auto. }
      apply (contact_motion_sat c k x Hc Hk). eauto.
    + intros c o Hc Ho. destruct (Cell (cl_force c)) as (k & Hk). { right. apply in_or_app. right. apply in_flat_map. exists c. simpl; auto. }
      apply (contact_force_sat c o k x Hc Ho Hk). apply (H (cl_force c)); auto.
      destruct (b_con _ B c Hc) as ([[[[n nf] mr] fr] rr] & Hok). apply Hok.
    + intros t Ht Hp. assert (Ht' : In t (tasks s)) by (unfold tasks; rewrite !in_app_iff; auto).
      destruct (Task t Ht' Hp) as (k & Hk & Sk). destruct (task_announced t Ht') as (kd & r & Ha).
      assert (G := task_sat t 0 (f_nv s) (e_task e (tl_task t)) k x kd r Ha). simpl in G. apply G; auto.
      * destruct E as (_ & _ & _ & _ & _ & E6 & _). eauto.
      * unfold nVar; lia.
      * right. apply in_or_app. left. apply in_map. exact Ht'.
      * apply (dk_motion _ _ D); exact Ht.
    + intros t Ht Hp. assert (Ht' : In t (tasks s)) by (unfold tasks; rewrite !in_app_iff; auto).
      destruct (Task t Ht' Hp) as (k & Hk & Sk). destruct (task_announced t Ht') as (kd & r & Ha).
      eapply (task_sat t _ _ (e_task e (tl_task t)) k x kd r Ha); eauto.
      * destruct E as (_ & _ & _ & _ & _ & _ & E7 & _). eapply E7; eauto.
      * apply slot_le.
      * right. apply in_or_app. left. apply in_map. exact Ht'.
      * apply (dk_force _ _ D); exact Ht.
    + intros t Ht Hp. assert (Ht' : In t (tasks s)) by (unfold tasks; rewrite !in_app_iff; auto).
      destruct (Task t Ht' Hp) as (k & Hk & Sk). destruct (task_announced t Ht') as (kd & r & Ha).
      eapply (act_sat t k x kd r); eauto.
  - intros [P1 P2 P3 P4 P5 P6] a k Hl Hk.
    assert (Ho : In a (owners s)) by (apply owner_in; [exact B|]; eapply in_level_in; exact Hl).
    destruct (owner_name s a A B Ho) as [(-> & _)|[(t & Ht & -> & _)|(c & n & nf & mr & fr & rr & Hc & Hok & _ & Hcase)]].
    + apply (base_sat k x Hk). exact P1.
    + destruct (b_task _ B t Ht) as (_ & _ & Hp). assert (Pr : tl_prio t = 0) by (eapply in_level_unique; eauto).
      destruct (task_announced t Ht) as (kd & r & Ha). assert (Ht' := Ht).
      unfold tasks in Ht. apply in_app_or in Ht. destruct Ht as [Ht|Ht]; [|apply in_app_or in Ht; destruct Ht as [Ht|Ht]].
      * assert (G := task_sat t 0 (f_nv s) (e_task e (tl_task t)) k x kd r Ha). simpl in G. apply G; auto.
        -- destruct E as (_ & _ & _ & _ & _ & E6 & _). eauto.
        -- unfold nVar; lia.
        -- apply (dk_motion _ _ D); exact Ht.
      * eapply (task_sat t _ _ (e_task e (tl_task t)) k x kd r Ha); eauto.
        -- destruct E as (_ & _ & _ & _ & _ & _ & E7 & _). eapply E7; eauto.
        -- apply slot_le.
        -- apply (dk_force _ _ D); exact Ht.
      * eapply (act_sat t k x kd r); eauto.
    + destruct Hcase as [(-> & _)|[(-> & _)|(-> & _)]].
      * apply (contact_motion_sat c k x Hc Hk). apply P2; [exact Hc|]. apply hard_motion_addr; assumption.
      * destruct (con_cells _ _ _ _ _ _ Hok) as (o & km & kf & Ho' & _). apply (contact_force_sat c o k x Hc Ho' Hk). exact (P3 c o Hc Ho').
      * destruct Hok as (_ & _ & _ & _ & _ & _ & H1). assert (X := in_level_unique s _ _ _ B Hl H1). discriminate.
Qed.

End Phys.
