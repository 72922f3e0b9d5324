(** Contents of the HQP data after computeProblemData. *)
From Coq Require Import String List Arith Bool ZArith Lia Permutation.
From Verif Require Import Scalar Outcome Linalg Constraint Formulation ListUtil FormSpec FormDataSpec FormInv FormInvB FormInvC FormOps FormSafe FormSafe2.
Import ListNotations.
Open Scope string_scope.
Open Scope list_scope.
Open Scope nat_scope.

Section Data.
Context {K : num}.
Variable dbg : bool.
Local Notation fstate := (fstate K).
Local Notation step := (step dbg).
Implicit Types (s : fstate) (h : list (constr K)) (w : K).

(** ** Cells *)
Lemma on_heap_get h a f h' : on_heap (K:=K) h a f = Some h' ->
  (exists c c', nth_error h a = Some c /\ f c = Some c' /\ nth_error h' a = Some c') /\
  (forall b, b <> a -> nth_error h' b = nth_error h b).
Proof.
  unfold on_heap. intros H. ob H. ob H. injection H as <-. split.
  - exists a0, a1. split; [exact E|]. split; [exact E0|]. apply nth_error_lupd_eq. apply nth_error_Some; congruence.
  - intros b Hb. apply nth_error_lupd_neq. congruence.
Qed.

Lemma put_cols_get (c c' : constr K) j n m : put_cols j n m c = Some c' ->
  c_kind c' = c_kind c /\ c_vec c' = c_vec c /\ c_lb c' = c_lb c /\ c_ub c' = c_ub c /\
  mrows (c_mat c') = mrows (c_mat c) /\ mcols (c_mat c') = mcols (c_mat c) /\
  mrows m = mrows (c_mat c) /\ mcols m = n /\ j + n <= mcols (c_mat c) /\
  forall r q, mget (c_mat c') r q = if (j <=? q) && (q <? j + n) then mget m r (q - j) else mget (c_mat c) r q.
Proof.
  unfold put_cols, mset_cols. intros H. ob H.
  destruct (_ && _) eqn:G in E; [|discriminate]. injection E as <-. injection H as <-. simpl.
  apply andb_true_iff in G. destruct G as [G G3]. apply andb_true_iff in G. destruct G as [G1 G2].
  apply Nat.leb_le in G1. apply Nat.eqb_eq in G2. apply Nat.eqb_eq in G3. repeat split; auto.
Qed.
Lemma put_right_get (c c' : constr K) n m : put_right n m c = Some c' ->
  put_cols (mcols (c_mat c) - n) n m c = Some c' /\ n <= mcols (c_mat c).
Proof.
  unfold put_right, put_cols, mset_right. intros H. ob H.
  destruct (n <=? mcols (c_mat c)) eqn:G; [|discriminate]. apply Nat.leb_le in G.
  rewrite E. simpl. auto.
Qed.

(** Zero outside columns [j0, j0+n). *)
Definition zero_out (M : mat K) (j0 n : nat) : Prop :=
  forall i j, i < mrows M -> j < mcols M -> (j0 <=? j) && (j <? j0 + n) = false -> mget M i j = n0.

Lemma put_only (c c' : constr K) j n m : put_cols j n m c = Some c' -> zero_out (c_mat c) j n ->
  only_cols (c_mat c') j n m.
Proof.
  intros H Hz i q Hi Hq. apply put_cols_get in H. destruct H as (_ & _ & _ & _ & R & C & _ & _ & _ & G).
  rewrite G. destruct (_ && _) eqn:E; [reflexivity|]. apply Hz; congruence.
Qed.
Lemma only_zero (M : mat K) j n m : only_cols M j n m -> zero_out M j n.
Proof. intros H i q Hi Hq E. rewrite H by assumption. rewrite E. reflexivity. Qed.

Lemma set_vec_get (c c' : constr K) v : cset_vec c v = Some c' ->
  c_mat c' = c_mat c /\ c_vec c' = v /\ is_eq (c_kind c') = true.
Proof. unfold cset_vec. destruct (c_kind c) eqn:E; try discriminate. intros H; injection H as <-. auto. Qed.
Lemma set_lb_get (c c' : constr K) v : cset_lb c v = Some c' ->
  c_mat c' = c_mat c /\ c_lb c' = v /\ c_ub c' = c_ub c /\ c_kind c' = c_kind c.
Proof. unfold cset_lb. destruct (c_kind c) eqn:E; try discriminate; intros H; injection H as <-; auto. Qed.
Lemma set_ub_get (c c' : constr K) v : cset_ub c v = Some c' ->
  c_mat c' = c_mat c /\ c_ub c' = v /\ c_lb c' = c_lb c /\ is_eq (c_kind c') = false.
Proof. unfold cset_ub. destruct (c_kind c) eqn:E; try discriminate; intros H; injection H as <-; auto. Qed.

(** ** One contact *)
Definition pre_contact s (c : clevel) (x : cobj K) : Prop :=
  (forall k, nth_error (f_heap s) (cl_motion c) = Some k -> zero_out (c_mat k) 0 (f_nv s)) /\
  (forall k, nth_error (f_heap s) (cl_force c) = Some k -> zero_out (c_mat k) (f_nv s + cl_index c) (co_nforce x)) /\
  (forall k, nth_error (f_heap s) (cl_reg c) = Some k -> zero_out (c_mat k) (f_nv s + cl_index c) (co_nforce x)).

Lemma comp_contact_get s e cl s' x :
  comp_contact s e cl = Some s' -> nth_error (f_objs s) (cl_obj cl) = Some x ->
  NoDup (con_addrs cl) -> pre_contact s cl x ->
  contact_filled s' e cl x /\
  (forall a, ~ In a (con_addrs cl) -> nth_error (f_heap s') a = nth_error (f_heap s) a) /\
  (forall r j, r < co_nforce x -> j < mcols (f_Jc s) -> mget (f_Jc s') (cl_index cl + r) j = jac e (cl_obj cl) r j) /\
  (forall r j, r < cl_index cl -> mget (f_Jc s') r j = mget (f_Jc s) r j).
Proof.
  intros H Hx Hd (Z1 & Z2 & Z3). unfold comp_contact, cobj_at in H. rewrite Hx in H. cbn [obind] in H.
  destruct (e_cmotion e (cl_obj cl)) as [A b] eqn:Em.
  ob H. ob H. ob H. destruct (e_cforce e (cl_obj cl) (co_fmin x) (co_fmax x)) as [[B lb] ub] eqn:Ef. ob H.
  destruct (e_creg e (cl_obj cl)) as [C d] eqn:Er. ob H. injection H as <-.
  apply on_heap_get in E. destruct E as [(k1 & k1' & G1 & P1 & R1) O1].
  apply on_heap_get in E2. destruct E2 as [(k2 & k2' & G2 & P2 & R2) O2].
  apply on_heap_get in E3. destruct E3 as [(k3 & k3' & G3 & P3 & R3) O3].
  unfold con_addrs in Hd.
  assert (D12 : cl_motion cl <> cl_force cl) by (intros X; inversion Hd as [|? ? Q _]; apply Q; left; auto).
  assert (D13 : cl_motion cl <> cl_reg cl) by (intros X; inversion Hd as [|? ? Q _]; apply Q; right; left; auto).
  assert (D23 : cl_force cl <> cl_reg cl).
  { intros X. inversion Hd as [|? ? _ Q]. inversion Q as [|? ? Q' _]. apply Q'. left; auto. }
  ob P1. ob P2. ob P2. ob P3.
  split; [|split; [|split]].
  - unfold contact_filled. rewrite Em, Ef, Er. cbn [fst snd f_heap f_nv w_Jc w_heap]. split; [|split].
    + exists k1'. rewrite (O3 _ D13), (O2 _ D12). split; [exact R1|].
      apply set_vec_get in P1. destruct P1 as (Q1 & Q2 & _). rewrite Q1, Q2. split; [|reflexivity].
      eapply put_only; [exact E|]. apply Z1; exact G1.
    + exists k2'. rewrite (O3 _ D23). split; [exact R2|].
      apply set_ub_get in P2. destruct P2 as (Q1 & Q2 & Q3 & _).
      apply set_lb_get in E3. destruct E3 as (Q4 & Q5 & Q6 & _).
      rewrite Q1, Q4, Q3, Q5, Q2. split; [|split; reflexivity].
      eapply put_only; [exact E2|]. apply Z2. rewrite <- (O1 (cl_force cl)); [exact G2|congruence].
    + exists k3'. split; [exact R3|].
      apply set_vec_get in P3. destruct P3 as (Q1 & Q2 & _). rewrite Q1, Q2. split; [|reflexivity].
      eapply put_only; [exact E4|]. apply Z3.
      rewrite <- (O1 (cl_reg cl)) by congruence. rewrite <- (O2 (cl_reg cl)) by congruence. exact G3.
  - intros p0 Ha. cbn [f_heap w_Jc w_heap]. simpl in Ha.
    rewrite O3, O2, O1; auto; intros X; apply Ha; subst; auto.
  - intros r j Hr Hj. cbn [f_Jc w_Jc]. unfold mset_rows in E1.
    destruct (_ && _) eqn:G in E1; [|discriminate]. injection E1 as <-. simpl.
    assert (T1 : (cl_index cl <=? cl_index cl + r) = true) by (apply Nat.leb_le; lia).
    assert (T2 : (cl_index cl + r <? cl_index cl + co_nforce x) = true) by (apply Nat.ltb_lt; lia).
    rewrite T1, T2. simpl. replace (cl_index cl + r - cl_index cl) with r by lia.
    unfold mmul in E0. simpl in E0. destruct (mrows (e_gen e (cl_obj cl)) =? mrows A) eqn:G'; [|discriminate].
    injection E0 as <-. simpl. unfold jac. rewrite Em. simpl. reflexivity.
  - intros r j Hr. cbn [f_Jc w_Jc]. unfold mset_rows in E1.
    destruct (_ && _) eqn:G in E1; [|discriminate]. injection E1 as <-. simpl.
    assert (T1 : (cl_index cl <=? r) = false) by (apply Nat.leb_gt; lia). rewrite T1. reflexivity.
Qed.

(** Frames for the spec predicates. *)
Lemma contact_filled_frame s s' e c x : contact_filled s e c x -> f_nv s' = f_nv s ->
  (forall a, In a (con_addrs c) -> nth_error (f_heap s') a = nth_error (f_heap s) a) -> contact_filled s' e c x.
Proof.
  intros (H1 & H2 & H3) En Hh. unfold contact_filled. rewrite En.
  rewrite !Hh by (simpl; auto). auto.
Qed.
Lemma pre_contact_frame s s' c x : pre_contact s c x -> f_nv s' = f_nv s ->
  (forall a, In a (con_addrs c) -> nth_error (f_heap s') a = nth_error (f_heap s) a) -> pre_contact s' c x.
Proof.
  intros (H1 & H2 & H3) En Hh. unfold pre_contact. rewrite En.
  rewrite !Hh by (simpl; auto). auto.
Qed.

Definition slot_of s (c : clevel) := (cl_index c, cl_nforce s c).

Lemma contacts_get e l : forall s s' a b,
  ofold (fun s cl => comp_contact s e cl) l s = Some s' ->
  NoDup (flat_map con_addrs l) -> tiles a (map (slot_of s) l) b ->
  (forall c, In c l -> exists x, nth_error (f_objs s) (cl_obj c) = Some x /\ pre_contact s c x) ->
  refilled s s' /\ mcols (f_Jc s') = mcols (f_Jc s) /\
  (forall c x, In c l -> nth_error (f_objs s) (cl_obj c) = Some x -> contact_filled s' e c x) /\
  (forall p, ~ In p (flat_map con_addrs l) -> nth_error (f_heap s') p = nth_error (f_heap s) p) /\
  (forall c x r j, In c l -> nth_error (f_objs s) (cl_obj c) = Some x -> r < co_nforce x -> j < mcols (f_Jc s) ->
     mget (f_Jc s') (cl_index c + r) j = jac e (cl_obj c) r j) /\
  (forall r j, r < a -> mget (f_Jc s') r j = mget (f_Jc s) r j).
Proof.
  induction l as [|c l IH]; intros s s' a b H Hd Ht Hp; simpl in H.
  - injection H as <-. split; [apply refilled_refl|]. split; [reflexivity|].
    split; [intros ? ? []|]. split; [auto|]. split; [intros ? ? ? ? []|auto].
  - destruct (comp_contact s e c) as [s1|] eqn:E; [|discriminate].
    simpl in Ht. destruct Ht as [Ea Ht]. simpl in Hd.
    change (cl_motion c :: cl_force c :: cl_reg c :: flat_map con_addrs l) with (con_addrs c ++ flat_map con_addrs l) in Hd.
    destruct (Hp c (or_introl eq_refl)) as (x & Hx & Px).
    assert (R1 := comp_contact_refilled _ _ _ _ E).
    destruct (comp_contact_get s e c s1 x E Hx (NoDup_app_l _ _ Hd) Px) as (C1 & C2 & C3 & C4).
    assert (En : f_nv s1 = f_nv s) by (rewrite R1; reflexivity).
    assert (Eo : f_objs s1 = f_objs s) by (rewrite R1; reflexivity).
    assert (Ej : mcols (f_Jc s1) = mcols (f_Jc s)).
    { clear - E. unfold comp_contact in E. ob E. destruct (e_cmotion e (cl_obj c)) as [A b0].
      ob E. ob E. ob E. destruct (e_cforce _ _ _ _) as [[B lb] ub]. ob E.
      destruct (e_creg e (cl_obj c)) as [C d]. ob E. injection E as <-. simpl.
      unfold mset_rows in E3. destruct (_ && _) in E3; [|discriminate]. injection E3 as <-. reflexivity. }
    assert (Sl : map (slot_of s1) l = map (slot_of s) l).
    { apply map_ext. intros y. unfold slot_of, cl_nforce, cobj_at. rewrite Eo. reflexivity. }
    assert (Nf : cl_nforce s c = co_nforce x) by (unfold cl_nforce, cobj_at; rewrite Hx; reflexivity).
    destruct (IH s1 s' (a + cl_nforce s c) b H (NoDup_app_r _ _ Hd)) as (K1 & K2 & K3 & K4 & K5 & K6).
    { rewrite Sl. exact Ht. }
    { intros c' Hc'. destruct (Hp c' (or_intror Hc')) as (x' & Hx' & Px').
      exists x'. rewrite Eo. split; [exact Hx'|]. eapply pre_contact_frame; [exact Px'|exact En|].
      intros p Hpp. apply C2. intros X. eapply (NoDup_app_inv _ _ p Hd); [exact X|].
      apply in_flat_map. exists c'. auto. }
    split; [eapply refilled_trans; eauto|]. split; [congruence|].
    split; [|split; [|split]].
    + intros c' x' [<-|Hc'] Hx'.
      * assert (x' = x) by congruence. subst x'. eapply contact_filled_frame; [exact C1| |].
        -- rewrite K1; reflexivity.
        -- intros p Hpp. apply K4. intros X. eapply (NoDup_app_inv _ _ p Hd); eauto.
      * apply K3; [exact Hc'|rewrite Eo; exact Hx'].
    + intros p Hpp. change (flat_map con_addrs (c :: l)) with (con_addrs c ++ flat_map con_addrs l) in Hpp.
      rewrite K4 by (intros X; apply Hpp, in_or_app; auto). apply C2. intros X; apply Hpp, in_or_app; auto.
    + intros c' x' r j [<-|Hc'] Hx' Hr Hj.
      * assert (x' = x) by congruence. subst x'. rewrite K6.
        -- apply C3; assumption.
        -- rewrite Nf. unfold slot_of in Ea. simpl in Ea. lia.
      * apply K5 with (x := x'); auto; congruence.
    + intros r j Hr. rewrite K6 by lia. apply C4. unfold slot_of in Ea; simpl in Ea. lia.
Qed.

(** ** Tasks: one address each *)
Lemma tasks_get (f : fstate -> tlevel -> option fstate) (P : fstate -> tlevel -> constr K -> constr K -> Prop) :
  (forall s t s', f s t = Some s' -> refilled s s' /\ f_Jc s' = f_Jc s /\
     (forall a, a <> tl_cstr t -> nth_error (f_heap s') a = nth_error (f_heap s) a) /\
     exists k k', nth_error (f_heap s) (tl_cstr t) = Some k /\ nth_error (f_heap s') (tl_cstr t) = Some k' /\ P s t k k') ->
  (forall s s' t k k', refilled s s' -> f_Jc s' = f_Jc s -> P s' t k k' -> P s t k k') ->
  forall l s s', ofold f l s = Some s' -> NoDup (map tl_cstr l) ->
  refilled s s' /\ f_Jc s' = f_Jc s /\
  (forall a, ~ In a (map tl_cstr l) -> nth_error (f_heap s') a = nth_error (f_heap s) a) /\
  (forall t, In t l -> exists k k', nth_error (f_heap s) (tl_cstr t) = Some k /\
     nth_error (f_heap s') (tl_cstr t) = Some k' /\ P s t k k').
Proof.
  intros Hf HP. induction l as [|t l IH]; intros s s' H Hd; simpl in H.
  - injection H as <-. split; [apply refilled_refl|]. split; [reflexivity|]. split; [auto|intros ? []].
  - destruct (f s t) as [s1|] eqn:E; [|discriminate]. simpl in Hd. inversion Hd as [|? ? Hn Hd']; subst.
    destruct (Hf _ _ _ E) as (R1 & J1 & O1 & (k & k' & G1 & G2 & P1)).
    destruct (IH _ _ H Hd') as (R2 & J2 & O2 & T2).
    split; [eapply refilled_trans; eauto|]. split; [congruence|]. split.
    + intros a Ha. simpl in Ha. rewrite O2 by tauto. apply O1. intros X; apply Ha; auto.
    + intros t' [<-|Ht'].
      * exists k, k'. split; [exact G1|]. split; [rewrite O2 by exact Hn; exact G2|exact P1].
      * destruct (T2 t' Ht') as (k1 & k1' & G3 & G4 & P2).
        exists k1, k1'. split; [|split; [exact G4|eapply HP; eauto]].
        rewrite <- O1; [exact G3|]. intros X. apply Hn. rewrite <- X. apply in_map; exact Ht'.
Qed.

(** Writing a task block: what the code puts into the cell. *)
Definition wrote (j n : nat) (c k k' : constr K) : Prop :=
  is_eq (c_kind k') = is_eq (c_kind c) /\
  (zero_out (c_mat k) j n -> only_cols (c_mat k') j n (block_of n c)) /\ same_rhs k' c.

Lemma wrote_get (c k k' : constr K) j n :
  match c_kind c with
  | CEq => do k <- put_cols j n (c_mat c) k; cset_vec k (c_vec c)
  | CIneq => do k <- put_cols j n (c_mat c) k; do k <- cset_lb k (c_lb c); cset_ub k (c_ub c)
  | CBound => do k <- put_cols j n (mident n n) k; do k <- cset_lb k (c_lb c); cset_ub k (c_ub c)
  end = Some k' -> wrote j n c k k'.
Proof.
  unfold wrote, block_of, same_rhs. intros H. destruct (c_kind c).
  - ob H. apply set_vec_get in H. destruct H as (Q1 & Q2 & Q3). split; [exact Q3|]. split; [|exact Q2].
    rewrite Q1. intros Z. eapply put_only; eauto.
  - ob H. ob H. apply set_ub_get in H. destruct H as (Q1 & Q2 & Q3 & Q6).
    apply set_lb_get in E0. destruct E0 as (Q4 & Q5 & _). split; [exact Q6|]. split; [|split; congruence].
    rewrite Q1, Q4. intros Z. eapply put_only; eauto.
  - ob H. ob H. apply set_ub_get in H. destruct H as (Q1 & Q2 & Q3 & Q6).
    apply set_lb_get in E0. destruct E0 as (Q4 & Q5 & _). split; [exact Q6|]. split; [|split; congruence].
    rewrite Q1, Q4. intros Z. eapply put_only; eauto.
Qed.

Lemma comp_motion_get e s t s' : comp_motion e s t = Some s' ->
  refilled s s' /\ f_Jc s' = f_Jc s /\
  (forall a, a <> tl_cstr t -> nth_error (f_heap s') a = nth_error (f_heap s) a) /\
  exists k k', nth_error (f_heap s) (tl_cstr t) = Some k /\ nth_error (f_heap s') (tl_cstr t) = Some k' /\
    wrote 0 (f_nv s) (e_task e (tl_task t)) k k'.
Proof.
  intros H. split; [eapply comp_motion_refilled; exact H|].
  unfold comp_motion in H. ob H. injection H as <-. split; [reflexivity|].
  apply on_heap_get in E. destruct E as [(k & k' & G1 & P1 & G2) O]. split; [exact O|].
  exists k, k'. split; [exact G1|]. split; [exact G2|]. apply wrote_get; exact P1.
Qed.

Lemma refilled_slot s s' n : refilled s s' -> force_slot s' n = force_slot s n.
Proof. intros ->. apply force_slot_eq; reflexivity. Qed.

Lemma comp_force_get e s t s' : comp_force e s t = Some s' ->
  refilled s s' /\ f_Jc s' = f_Jc s /\
  (forall a, a <> tl_cstr t -> nth_error (f_heap s') a = nth_error (f_heap s) a) /\
  exists k k', nth_error (f_heap s) (tl_cstr t) = Some k /\ nth_error (f_heap s') (tl_cstr t) = Some k' /\
    wrote (fst (force_slot s (e_assoc e (tl_task t)))) (snd (force_slot s (e_assoc e (tl_task t))))
          (e_task e (tl_task t)) k k'.
Proof.
  intros H. split; [eapply comp_force_refilled; exact H|].
  unfold comp_force in H. destruct (force_slot s (e_assoc e (tl_task t))) as [i0 sz] eqn:Es. ob H. injection H as <-. split; [reflexivity|].
  apply on_heap_get in E. destruct E as [(k & k' & G1 & P1 & G2) O]. split; [exact O|].
  exists k, k'. split; [exact G1|]. split; [exact G2|]. simpl. apply wrote_get; exact P1.
Qed.

(** ** Cells written in full: base dynamics and actuation tasks *)
Lemma cover_get (k k1 k2 : constr K) nv kk A B :
  put_cols 0 nv A k = Some k1 -> put_right kk B k1 = Some k2 -> mcols (c_mat k) = nv + kk ->
  mrows (c_mat k2) = mrows (c_mat k) /\ mrows A = mrows (c_mat k) /\
  forall i j, j < nv + kk -> mget (c_mat k2) i j = if j <? nv then mget A i j else mget B i (j - nv).
Proof.
  intros H1 H2 Hc. apply put_cols_get in H1. destruct H1 as (_ & _ & _ & _ & R1 & C1 & RA & _ & _ & G1).
  apply put_right_get in H2. destruct H2 as [H2 _]. apply put_cols_get in H2.
  destruct H2 as (_ & _ & _ & _ & R2 & C2 & _ & _ & _ & G2).
  split; [congruence|]. split; [exact RA|].
  intros i j Hj. rewrite G2. rewrite C1, Hc. replace (nv + kk - kk) with nv by lia.
  destruct (j <? nv) eqn:E.
  - apply Nat.ltb_lt in E. assert (T : (nv <=? j) = false) by (apply Nat.leb_gt; lia). rewrite T. simpl.
    rewrite G1. simpl. apply Nat.ltb_lt in E. rewrite E. rewrite Nat.sub_0_r. reflexivity.
  - apply Nat.ltb_ge in E. assert (T : (nv <=? j) = true) by (apply Nat.leb_le; lia).
    assert (T2 : (j <? nv + kk) = true) by (apply Nat.ltb_lt; lia). rewrite T, T2. reflexivity.
Qed.

Lemma hfext_get s e hf : comp_hfext s e = Some hf ->
  vlen hf = f_nv s /\ forall i, vget hf i = ext_torque e (f_meas s) i.
Proof.
  unfold comp_hfext, ext_torque.
  assert (G : forall l (v : vec K) hf, ofold (fun acc (m : nat * string) => vadd acc (e_meas e (fst m))) l v = Some hf ->
    vlen hf = vlen v /\ forall i, vget hf i = fold_left (fun acc (m : nat * string) => (acc + vget (e_meas e (fst m)) i)%num) l (vget v i)).
  { induction l as [|m l IH]; intros v r H; simpl in H.
    - injection H as <-. auto.
    - destruct (vadd v (e_meas e (fst m))) as [v'|] eqn:E; [|discriminate].
      unfold vadd in E. destruct (_ =? _) in E; [|discriminate]. injection E as <-.
      apply IH in H. simpl in H. exact H. }
  intros H. apply G in H. exact H.
Qed.

Definition dyn_is s (d : dynb (K:=K)) : Prop :=
  (forall a b, mget (d_Ma d) a b = mget (f_mass s) (f_nu s + a) b) /\
  (forall a, vget (d_ha d) a = (vget (f_nle s) (f_nu s + a) - vget (f_hfext s) (f_nu s + a))%num) /\
  (forall a b, mget (d_Ja d) a b = mget (f_Jc s) a (f_nu s + b)) /\
  (forall a b, mget (d_Mu d) a b = mget (f_mass s) a b) /\
  (forall a, vget (d_hu d) a = (vget (f_nle s) a - vget (f_hfext s) a)%num) /\
  (forall a b, mget (d_Ju d) a b = mget (f_Jc s) a b).

Lemma dyn_get s d : invA s -> f_nu s <= f_nv s ->
  mrows (f_mass s) = f_nv s -> mcols (f_mass s) = f_nv s -> vlen (f_nle s) = f_nv s -> vlen (f_hfext s) = f_nv s ->
  dyn_blocks s = Some d -> dyn_ok s d /\ dyn_is s d.
Proof.
  intros HA Hu M1 M2 Hn Hh H.
  assert (Ok : dyn_ok s d).
  { destruct (dyn_total s HA Hu M1 M2 Hn Hh) as (d' & E & D). congruence. }
  split; [exact Ok|]. clear Ok. unfold dyn_blocks in H.
  unfold mbottom, mtop, mleft, mright, mrowsblk, mcolsblk, vtail, vhead, vsegment in H.
  rewrite M1, Hn, Hh, (ia_jc _ HA) in H.
  replace (f_nv s - (f_nv s - f_nu s)) with (f_nu s) in H by lia.
  unfold vsub in H.
  repeat match type of H with context [if ?b then _ else _] => destruct b; cbn [obind vlen] in H; try discriminate end.
  injection H as <-. unfold dyn_is; simpl. repeat split; try reflexivity.
Qed.

Lemma cell_cols s a n kd r k : invA s -> info s a = Some (n, kd, r) -> In a (map snd (concat (f_hqp s))) ->
  nth_error (f_heap s) a = Some k -> mcols (c_mat k) = nVar s /\ mrows (c_mat k) = r.
Proof.
  intros HA Hi Hin Hk. destruct (proj1 (in_map_iff _ _ _) Hin) as (en & <- & He).
  assert (F := ia_cols _ HA). rewrite Forall_forall in F. destruct (F _ He) as (n1 & k1 & r1 & E).
  unfold info in Hi. rewrite E in Hi. simpl in Hi. injection Hi; intros.
  unfold shapes in E. rewrite nth_error_map, Hk in E. simpl in E. injection E; intros. split; congruence.
Qed.

(** ** Zero footprint *)
Definition footprint (asc : nat -> string) s : Prop :=
  (forall c x, In c (f_contacts s) -> nth_error (f_objs s) (cl_obj c) = Some x -> pre_contact s c x) /\
  (forall t k, In t (f_motions s) -> nth_error (f_heap s) (tl_cstr t) = Some k -> zero_out (c_mat k) 0 (f_nv s)) /\
  (forall t k, In t (f_forces s) -> nth_error (f_heap s) (tl_cstr t) = Some k ->
     zero_out (c_mat k) (fst (force_slot s (asc (tl_task t)))) (snd (force_slot s (asc (tl_task t))))).

Lemma data_footprint asc s e : (forall id, e_assoc e id = asc id) -> data_ok s e -> footprint asc s.
Proof.
  intros Ha D. split; [|split].
  - intros c x Hc Hx. destruct (dk_contact _ _ D c x Hc Hx) as ((k1 & E1 & O1 & _) & (k2 & E2 & O2 & _) & (k3 & E3 & O3 & _)).
    repeat split; intros k Hk.
    + assert (k = k1) by congruence. subst. eapply only_zero; eauto.
    + assert (k = k2) by congruence. subst. eapply only_zero; eauto.
    + assert (k = k3) by congruence. subst. eapply only_zero; eauto.
  - intros t k Ht Hk. destruct (dk_motion _ _ D t Ht) as (k1 & E1 & _ & O1 & _).
    assert (k = k1) by congruence. subst. eapply only_zero; eauto.
  - intros t k Ht Hk. destruct (dk_force _ _ D t Ht) as (k1 & E1 & _ & O1 & _).
    assert (k = k1) by congruence. subst. rewrite <- Ha. eapply only_zero; eauto.
Qed.

(** What the actuation loop writes into a cell. *)
Definition act_wrote s (d : dynb (K:=K)) (c k k' : constr K) : Prop :=
  is_eq (c_kind k') = is_eq (c_kind c) /\ (mcols (c_mat k) = f_nv s + f_k s ->
  let na := f_nv s - f_nu s in
  (c_kind c = CBound -> mrows (c_mat k') = na) /\
  (forall i j, j < f_nv s + f_k s ->
     mget (c_mat k') i j =
     match c_kind c with
     | CBound => if j <? f_nv s then mget (d_Ma d) i j else (- mget (d_Ja d) (j - f_nv s) i)%num
     | _ => if j <? f_nv s then nsum na (fun q => (mget (c_mat c) i q * mget (d_Ma d) q j)%num)
            else nsum na (fun q => (- mget (c_mat c) i q * mget (d_Ja d) (j - f_nv s) q)%num)
     end) /\
  let bias i := match c_kind c with
                | CBound => vget (d_ha d) i
                | _ => nsum na (fun q => (mget (c_mat c) i q * vget (d_ha d) q)%num) end in
  match c_kind c with
  | CEq => shifted (c_vec k') (c_vec c) bias
  | _ => shifted (c_lb k') (c_lb c) bias /\ shifted (c_ub k') (c_ub c) bias
  end).

Lemma vsub_get (u v z : vec K) : vsub u v = Some z -> shifted z u (vget v).
Proof. unfold vsub. destruct (_ =? _); [|discriminate]. intros H; injection H as <-. split; auto. Qed.

Lemma comp_act_get e d s t s' : vlen (d_ha d) = f_nv s - f_nu s -> mrows (d_Ma d) = f_nv s - f_nu s ->
  mcols (d_Ja d) = f_nv s - f_nu s -> comp_act e d s t = Some s' ->
  refilled s s' /\ f_Jc s' = f_Jc s /\
  (forall a, a <> tl_cstr t -> nth_error (f_heap s') a = nth_error (f_heap s) a) /\
  exists k k', nth_error (f_heap s) (tl_cstr t) = Some k /\ nth_error (f_heap s') (tl_cstr t) = Some k' /\
    act_wrote s d (e_task e (tl_task t)) k k'.
Proof.
  intros Lh LM LJ H. split; [eapply comp_act_refilled; exact H|].
  unfold comp_act in H. ob H. injection H as <-. split; [reflexivity|].
  apply on_heap_get in E. destruct E as [(k & k' & G1 & P1 & G2) O]. split; [exact O|].
  exists k, k'. split; [exact G1|]. split; [exact G2|].
  unfold act_wrote. destruct (c_kind (e_task e (tl_task t))).
  - ob P1. ob P1. ob P1. ob P1. ob P1. ob P1.
    apply set_vec_get in P1. destruct P1 as (Q1 & Q2 & Q0). split; [exact Q0|]. intros Hc.
    destruct (cover_get _ _ _ _ _ _ _ E0 E2 Hc) as (_ & _ & G). rewrite Q1, Q2.
    unfold mmul in E, E1. simpl in E1.
    destruct (_ =? _) eqn:D1 in E; [|discriminate]. injection E as <-.
    destruct (_ =? _) eqn:D2 in E1; [|discriminate]. injection E1 as <-.
    unfold mvec in E3. destruct (_ =? _) eqn:D3 in E3; [|discriminate]. injection E3 as <-.
    apply Nat.eqb_eq in D1. rewrite LM in D1. simpl in G. split; [discriminate|]. split.
    + intros i j Hj. rewrite (G i j Hj), D1. reflexivity.
    + apply vsub_get in E4. simpl in E4. rewrite D1 in E4. exact E4.
  - ob P1. ob P1. ob P1. ob P1. ob P1. ob P1. ob P1. ob P1.
    apply set_ub_get in P1. destruct P1 as (Q1 & Q2 & Q3 & Q0). split; [exact Q0|]. intros Hc.
    apply set_lb_get in E5. destruct E5 as (Q4 & Q5 & _).
    destruct (cover_get _ _ _ _ _ _ _ E0 E2 Hc) as (_ & _ & G). rewrite Q1, Q4, Q2, Q3, Q5.
    unfold mmul in E, E1. simpl in E1.
    destruct (_ =? _) eqn:D1 in E; [|discriminate]. injection E as <-.
    destruct (_ =? _) eqn:D2 in E1; [|discriminate]. injection E1 as <-.
    unfold mvec in E3. destruct (_ =? _) eqn:D3 in E3; [|discriminate]. injection E3 as <-.
    apply Nat.eqb_eq in D1. rewrite LM in D1. simpl in G. split; [discriminate|]. split.
    + intros i j Hj. rewrite (G i j Hj), D1. reflexivity.
    + apply vsub_get in E4, E6. simpl in E4, E6. rewrite D1 in E4, E6. split; assumption.
  - ob P1. ob P1. ob P1. ob P1. ob P1.
    apply set_ub_get in P1. destruct P1 as (Q1 & Q2 & Q3 & Q0). split; [exact Q0|]. intros Hc.
    apply set_lb_get in E2. destruct E2 as (Q4 & Q5 & _).
    destruct (cover_get _ _ _ _ _ _ _ E E0 Hc) as (Rk & RA & G). rewrite Q1, Q4, Q2, Q3, Q5. simpl in G.
    split; [intros _; congruence|]. split.
    + exact G.
    + apply vsub_get in E1, E3. split; assumption.
Qed.

Lemma comp_base_get s d s' : comp_base s d = Some s' ->
  f_Jc s' = f_Jc s /\
  (forall a, a <> f_base s -> nth_error (f_heap s') a = nth_error (f_heap s) a) /\
  exists k k', nth_error (f_heap s) (f_base s) = Some k /\ nth_error (f_heap s') (f_base s) = Some k' /\
    (mcols (c_mat k) = f_nv s + f_k s ->
     forall i j, j < f_nv s + f_k s ->
     mget (c_mat k') i j = if j <? f_nv s then mget (d_Mu d) i j else (- mget (d_Ju d) (j - f_nv s) i)%num) /\
    c_vec k' = vopp (d_hu d).
Proof.
  intros H. unfold comp_base in H. ob H. injection H as <-. split; [reflexivity|].
  apply on_heap_get in E. destruct E as [(k & k' & G1 & P1 & G2) O]. split; [exact O|].
  exists k, k'. split; [exact G1|]. split; [exact G2|]. ob P1. ob P1.
  apply set_vec_get in P1. destruct P1 as (Q1 & Q2 & _). split; [|exact Q2].
  intros Hc. destruct (cover_get _ _ _ _ _ _ _ E E0 Hc) as (_ & _ & G). rewrite Q1. exact G.
Qed.

Lemma tasks_get_in (f : fstate -> tlevel -> option fstate) (P : fstate -> tlevel -> constr K -> constr K -> Prop) (Q : fstate -> Prop) :
  (forall s t s', Q s -> f s t = Some s' -> refilled s s' /\ f_Jc s' = f_Jc s /\ Q s' /\
     (forall a, a <> tl_cstr t -> nth_error (f_heap s') a = nth_error (f_heap s) a) /\
     exists k k', nth_error (f_heap s) (tl_cstr t) = Some k /\ nth_error (f_heap s') (tl_cstr t) = Some k' /\ P s t k k') ->
  (forall s s' t k k', refilled s s' -> f_Jc s' = f_Jc s -> P s' t k k' -> P s t k k') ->
  forall l s s', Q s -> ofold f l s = Some s' -> NoDup (map tl_cstr l) ->
  refilled s s' /\ f_Jc s' = f_Jc s /\
  (forall a, ~ In a (map tl_cstr l) -> nth_error (f_heap s') a = nth_error (f_heap s) a) /\
  (forall t, In t l -> exists k k', nth_error (f_heap s) (tl_cstr t) = Some k /\
     nth_error (f_heap s') (tl_cstr t) = Some k' /\ P s t k k').
Proof.
  intros Hf HP. induction l as [|t l IH]; intros s s' HQ H Hd; simpl in H.
  - injection H as <-. split; [apply refilled_refl|]. split; [reflexivity|]. split; [auto|intros ? []].
  - destruct (f s t) as [s1|] eqn:E; [|discriminate]. simpl in Hd. inversion Hd as [|? ? Hn Hd']; subst.
    destruct (Hf _ _ _ HQ E) as (R1 & J1 & Q1 & O1 & (k & k' & G1 & G2 & P1)).
    destruct (IH _ _ Q1 H Hd') as (R2 & J2 & O2 & T2).
    split; [eapply refilled_trans; eauto|]. split; [congruence|]. split.
    + intros a Ha. simpl in Ha. rewrite O2 by tauto. apply O1. intros X; apply Ha; auto.
    + intros t' [<-|Ht'].
      * exists k, k'. split; [exact G1|]. split; [rewrite O2 by exact Hn; exact G2|exact P1].
      * destruct (T2 t' Ht') as (k1 & k1' & G3 & G4 & P2).
        exists k1, k1'. split; [|split; [exact G4|eapply HP; eauto]].
        rewrite <- O1; [exact G3|]. intros X. apply Hn. rewrite <- X. apply in_map; exact Ht'.
Qed.

Theorem comp_fill_data asc s e s' : invA s -> invB s -> invS s -> env_ok s e ->
  (forall id, e_assoc e id = asc id) -> footprint asc s -> comp_fill s e = Some s' -> data_ok s' e.
Proof.
  intros HA HB HS HE Hasc (Z1 & Z2 & Z3) H.
  assert (Hsame := comp_fill_same _ _ _ H).
  destruct HE as (E1 & E2 & E3 & E4 & E5 & E6 & E7 & E8).
  assert (ND := owners_nodup _ HB). unfold owners in ND. inversion ND as [|? ? NB ND1]; subst; clear ND.
  assert (NDt := NoDup_app_l _ _ ND1). assert (NDc := NoDup_app_r _ _ ND1).
  assert (Nd : forall a, In a (map tl_cstr (tasks s)) -> In a (flat_map con_addrs (f_contacts s)) -> False)
    by (intros a; apply NoDup_app_inv; exact ND1).
  clear ND1. unfold tasks in NDt, NB, Nd. rewrite !map_app in NDt, NB, Nd.
  assert (NDm := NoDup_app_l _ _ NDt). assert (NDr := NoDup_app_r _ _ NDt).
  assert (NDf := NoDup_app_l _ _ NDr). assert (NDa := NoDup_app_r _ _ NDr).
  unfold comp_fill in H. cbv zeta in H. set (s0 := w_dyn s (e_mass e) (e_nle e)) in *.
  destruct (ofold (fun s cl => comp_contact s e cl) (f_contacts s0) s0) as [s1|] eqn:F1; [|discriminate]. cbn [obind] in H.
  destruct (contacts_get e (f_contacts s0) s0 s1 0 (f_k s) F1 NDc) as (R1 & _ & C1 & O1 & J1 & _).
  { exact (ia_tile _ HA). }
  { intros c Hc. assert (Fo := ia_objs _ HA). rewrite Forall_forall in Fo. specialize (Fo c Hc).
    destruct (nth_error (f_objs s) (cl_obj c)) as [x|] eqn:Ex; [|apply nth_error_None in Ex; lia].
    exists x. split; [exact Ex|]. exact (Z1 c x Hc Ex). }
  assert (A1 : invA s1).
  { eapply invA_same; [|apply invA_dyn with (m := e_mass e) (v := e_nle e); exact HA].
    eapply (ofold_same (fun s cl => comp_contact s e cl)); [|exact F1]. intros; eapply comp_contact_same; eauto. }
  destruct (comp_hfext s1 e) as [hf|] eqn:F2; [|discriminate]. cbn [obind] in H.
  destruct (hfext_get _ _ _ F2) as [L2 X2].
  set (s2 := w_hfext s1 hf) in *.
  assert (A2 : invA s2) by (apply invA_hfext; exact A1).
  assert (N2 : f_nv s2 = f_nv s) by (unfold s2; rewrite R1; reflexivity).
  assert (U2 : f_nu s2 = f_nu s) by (unfold s2; rewrite R1; reflexivity).
  assert (Ms2 : f_meas s2 = f_meas s) by (unfold s2; rewrite R1; reflexivity).
  assert (Mm2 : f_mass s2 = e_mass e) by (unfold s2; rewrite R1; reflexivity).
  assert (Mn2 : f_nle s2 = e_nle e) by (unfold s2; rewrite R1; reflexivity).
  assert (K2 : f_k s2 = f_k s) by (unfold s2; rewrite R1; reflexivity).
  assert (B2 : f_base s2 = f_base s) by (unfold s2; rewrite R1; reflexivity).
  assert (T2 : f_motions s2 = f_motions s) by (unfold s2; rewrite R1; reflexivity).
  assert (T2' : f_forces s2 = f_forces s) by (unfold s2; rewrite R1; reflexivity).
  assert (T2'' : f_acts s2 = f_acts s) by (unfold s2; rewrite R1; reflexivity).
  assert (Ct2 : f_contacts s2 = f_contacts s) by (unfold s2; rewrite R1; reflexivity).
  assert (Ob2 : f_objs s2 = f_objs s) by (unfold s2; rewrite R1; reflexivity).
  assert (Q2 : f_hqp s2 = f_hqp s) by (unfold s2; rewrite R1; reflexivity).
  assert (Sl2 : forall n, force_slot s2 n = force_slot s n) by (intros n; apply force_slot_eq; unfold s2; rewrite R1; reflexivity).
  assert (L2' : vlen hf = f_nv s) by (rewrite L2; rewrite R1; reflexivity).
  destruct (dyn_blocks s2) as [d|] eqn:F3; [|discriminate]. cbn [obind] in H.
  destruct (dyn_get s2 d A2) as (Dok & Dis); try (rewrite ?N2, ?U2, ?Mm2, ?Mn2; auto; fail).
  { rewrite N2, U2. apply (is_nu _ HS). }
  destruct Dok as (D1 & D2 & D3 & D4 & D5 & D6 & D7 & D8 & D9 & D10).
  destruct Dis as (I1 & I2 & I3 & I4 & I5 & I6).
  rewrite N2, U2 in *.
  destruct (comp_base s2 d) as [s3|] eqn:F4; [|discriminate]. cbn [obind] in H.
  assert (R3 := comp_base_refilled _ _ _ F4).
  destruct (comp_base_get _ _ _ F4) as (J3 & O3 & (kb & kb' & Gb & Gb' & Mb & Vb)).
  rewrite N2, K2 in Mb. rewrite B2 in *.
  destruct (ofold (comp_motion e) (f_motions s3) s3) as [s4|] eqn:F5; [|discriminate]. cbn [obind] in H.
  assert (T3 : f_motions s3 = f_motions s) by (rewrite R3; exact T2). rewrite T3 in F5.
  destruct (tasks_get _ (fun q t k k' => wrote 0 (f_nv q) (e_task e (tl_task t)) k k') (comp_motion_get e)) with (l := f_motions s) (s := s3) (s' := s4)
    as (R4 & J4 & O4 & G4); auto.
  { intros q q' t k k' Hr _. rewrite Hr. auto. }
  destruct (ofold (comp_force e) (f_forces s4) s4) as [s5|] eqn:F6; [|discriminate]. cbn [obind] in H.
  assert (T4 : f_forces s4 = f_forces s) by (rewrite R4, R3; exact T2'). rewrite T4 in F6.
  destruct (tasks_get _ (fun (q : fstate) t k k' => wrote (fst (force_slot q (e_assoc e (tl_task t)))) (snd (force_slot q (e_assoc e (tl_task t)))) (e_task e (tl_task t)) k k') (comp_force_get e)) with (l := f_forces s) (s := s4) (s' := s5)
    as (R5 & J5 & O5 & G5); auto.
  { intros q q' t k k' Hr _. rewrite (refilled_slot _ _ _ Hr). auto. }
  destruct (ofold (comp_act e d) (f_acts s5) s5) as [s6|] eqn:F7; [|discriminate]. cbn [obind] in H.
  assert (T5 : f_acts s5 = f_acts s) by (rewrite R5, R4, R3; exact T2''). rewrite T5 in F7.
  assert (R25 : refilled s2 s5) by (apply (refilled_trans _ _ _ R3); apply (refilled_trans _ _ _ R4); exact R5).
  destruct (tasks_get_in (comp_act e d) (fun q t k k' => act_wrote q d (e_task e (tl_task t)) k k') (fun q => refilled s2 q)) with (l := f_acts s) (s := s5) (s' := s6)
    as (R6 & J6 & O6 & G6); auto.
  { intros q t q' Hq Hf. assert (Nq : f_nv q = f_nv s) by (rewrite Hq; exact N2).
    assert (Uq : f_nu q = f_nu s) by (rewrite Hq; exact U2).
    destruct (comp_act_get e d q t q') as (X & Y & Z & W); try (rewrite Nq, Uq; assumption); auto.
    split; [exact X|]. split; [exact Y|]. split; [eapply refilled_trans; eauto|]. auto. }
  { intros q q' t k k' Hr _. rewrite Hr. auto. }
  injection H as <-.
  assert (R26 : refilled s2 s6) by (eapply refilled_trans; eauto).
  assert (Jf : f_Jc s6 = f_Jc s1) by (rewrite J6, J5, J4, J3; reflexivity).
  (* no loop touches another owner's cell *)
  assert (Oacts : forall a, ~ In a (map tl_cstr (f_acts s)) -> nth_error (f_heap s6) a = nth_error (f_heap s5) a) by exact O6.
  set (sf := w_dec s6 false).
  assert (Ef : forall (B : Type) (p : fstate -> B), True) by auto. clear Ef.
  assert (Nf : f_nv sf = f_nv s) by (unfold sf; rewrite R26; exact N2).
  assert (Uf : f_nu sf = f_nu s) by (unfold sf; rewrite R26; exact U2).
  assert (Kf : f_k sf = f_k s) by (unfold sf; rewrite R26; exact K2).
  assert (Cf : f_contacts sf = f_contacts s) by (unfold sf; rewrite R26; exact Ct2).
  assert (Of : f_objs sf = f_objs s) by (unfold sf; rewrite R26; exact Ob2).
  assert (Bf : f_base sf = f_base s) by (unfold sf; rewrite R26; exact B2).
  assert (Mef : f_meas sf = f_meas s) by (unfold sf; rewrite R26; exact Ms2).
  assert (Mof : f_motions sf = f_motions s) by (unfold sf; rewrite R26; exact T2).
  assert (Fof : f_forces sf = f_forces s) by (unfold sf; rewrite R26; exact T2').
  assert (Acf : f_acts sf = f_acts s) by (unfold sf; rewrite R26; exact T2'').
  assert (Jsf : f_Jc sf = f_Jc s1) by exact Jf.
  assert (Vf : nVar sf = f_nv s + f_k s) by (unfold nVar; congruence).
  assert (Slf : forall n, force_slot sf n = force_slot s n).
  { intros n. rewrite <- Sl2. apply force_slot_eq; unfold sf; rewrite R26; reflexivity. }
  assert (Hff : f_hfext sf = hf) by (unfold sf; rewrite R26; reflexivity).
  assert (Xt : forall i, vget hf i = ext_torque e (f_meas s) i).
  { intros i. rewrite X2. unfold s2 in Ms2. simpl in Ms2. rewrite Ms2. reflexivity. }
  assert (Pc : forall t n, In t (tasks s) -> forall k, nth_error (f_heap s) n = Some k -> True) by auto. clear Pc.
  (* untouched before *)
  assert (Otask : forall a, In a (map tl_cstr (tasks s)) -> nth_error (f_heap s2) a = nth_error (f_heap s) a).
  { intros a Ha. change (f_heap s2) with (f_heap s1). apply O1. unfold tasks in Ha. rewrite !map_app in Ha. intros X. exact (Nd a Ha X). }
  assert (Ob3 : forall a, a <> f_base s -> nth_error (f_heap s3) a = nth_error (f_heap s2) a) by exact O3.
  assert (NBt : forall a, In a (map tl_cstr (tasks s)) -> a <> f_base s).
  { intros a Ha ->. apply NB. unfold tasks in Ha. rewrite !map_app in Ha. apply in_or_app. left. exact Ha. }
  assert (Tcell : forall t k, In t (tasks s) -> nth_error (f_heap s) (tl_cstr t) = Some k -> mcols (c_mat k) = f_nv s + f_k s).
  { intros t k Ht Hk. destruct (b_task _ HB t Ht) as ((kd & r & Hi) & _).
    eapply cell_cols; [exact HA|exact Hi| |exact Hk].
    eapply Permutation_in; [symmetry; exact (b_perm _ HB)|]. right. apply in_or_app. left. apply in_map; exact Ht. }
  constructor.
  - unfold sf; rewrite R26. exact Mm2.
  - unfold sf; rewrite R26. exact Mn2.
  - intros i _. rewrite Hff, Mef. apply Xt.
  - intros c x r j Hc Hx Hr Hj. rewrite Cf in Hc. rewrite Of in Hx. rewrite Jsf. rewrite Nf in Hj.
    apply J1 with (x := x); auto. change (f_Jc s0) with (f_Jc s). rewrite (ia_jc _ HA). exact Hj.
  - intros c x Hc Hx. rewrite Cf in Hc. rewrite Of in Hx.
    eapply contact_filled_frame; [exact (C1 c x Hc Hx)| |].
    + rewrite Nf. rewrite R1. reflexivity.
    + intros a Ha. assert (Hin : In a (flat_map con_addrs (f_contacts s))) by (apply in_flat_map; eauto).
      assert (Na : ~ In a (map tl_cstr (f_motions s)) /\ ~ In a (map tl_cstr (f_forces s)) /\ ~ In a (map tl_cstr (f_acts s))).
      { repeat split; intros X; apply (Nd a); auto; rewrite !in_app_iff; auto. }
      destruct Na as (Na1 & Na2 & Na3). change (f_heap sf) with (f_heap s6).
      rewrite Oacts, O5, O4, O3 by (auto; intros ->; apply NB; apply in_or_app; auto). reflexivity.
  - exists kb'. rewrite Bf. assert (Na : forall l, (forall a, In a l -> In a (map tl_cstr (f_motions s) ++ map tl_cstr (f_forces s) ++ map tl_cstr (f_acts s))) -> ~ In (f_base s) l).
    { intros l Hl X. apply NB. apply in_or_app. left. apply Hl; exact X. }
    split.
    { change (f_heap sf) with (f_heap s6). rewrite Oacts, O5, O4; auto; apply Na; intros a; rewrite !in_app_iff; auto. }
    assert (Cb : mcols (c_mat kb) = f_nv s + f_k s).
    { destruct (ia_base _ A2) as (c & Hs & Hc). unfold shapes in Hs. rewrite nth_error_map, B2, Gb in Hs.
      simpl in Hs. injection Hs as _ _ _ ->. rewrite Hc. unfold nVar. congruence. }
    specialize (Mb Cb). split; [|split].
    + intros i j Hi Hj. rewrite Vf in Hj. rewrite Mb by exact Hj. rewrite Nf, I4, I6, Mm2, Jsf. reflexivity.
    + rewrite Vb. cbn [vopp vlen]. rewrite Uf. exact D8.
    + intros i Hi. rewrite Vb. cbn [vopp vget]. rewrite I5, Mn2. change (f_hfext s2) with hf. rewrite Xt, Mef. reflexivity.
  - intros t Ht. rewrite Mof in Ht. destruct (G4 t Ht) as (k & k' & Gk & Gk' & (W0 & W1 & W2)).
    assert (Htt : In t (tasks s)) by (unfold tasks; rewrite !in_app_iff; auto).
    assert (Ha : In (tl_cstr t) (map tl_cstr (f_motions s))) by (apply in_map; exact Ht).
    assert (Nr : ~ In (tl_cstr t) (map tl_cstr (f_forces s) ++ map tl_cstr (f_acts s))) by (intros X; eapply (NoDup_app_inv _ _ _ NDt); eauto).
    rewrite in_app_iff in Nr. assert (Hat := in_map tl_cstr _ _ Htt).
    exists k'. split; [change (f_heap sf) with (f_heap s6); rewrite Oacts, O5 by tauto; exact Gk'|].
    split; [exact W0|]. split; [|exact W2]. rewrite Nf. assert (N3 : f_nv s3 = f_nv s) by (rewrite R3; exact N2). rewrite N3 in W1. apply W1.
    apply (Z2 t k Ht). rewrite <- Otask by exact Hat. rewrite <- O3 by (apply NBt; exact Hat). exact Gk.
  - intros t Ht. rewrite Fof in Ht. destruct (G5 t Ht) as (k & k' & Gk & Gk' & (W0 & W1 & W2)).
    assert (Htt : In t (tasks s)) by (unfold tasks; rewrite !in_app_iff; auto).
    assert (Ha : In (tl_cstr t) (map tl_cstr (f_forces s))) by (apply in_map; exact Ht).
    assert (Nr : ~ In (tl_cstr t) (map tl_cstr (f_acts s))) by (intros X; eapply (NoDup_app_inv _ _ _ NDr); eauto).
    assert (Nl : ~ In (tl_cstr t) (map tl_cstr (f_motions s))) by (intros X; eapply (NoDup_app_inv _ _ _ NDt); [exact X|apply in_or_app; auto]).
    assert (Hat := in_map tl_cstr _ _ Htt).
    exists k'. split; [change (f_heap sf) with (f_heap s6); rewrite Oacts by tauto; exact Gk'|].
    split; [exact W0|]. split; [|exact W2]. rewrite Slf.
    assert (S4 : force_slot s4 (e_assoc e (tl_task t)) = force_slot s (e_assoc e (tl_task t))).
    { rewrite <- Sl2. apply refilled_slot. exact (refilled_trans _ _ _ R3 R4). }
    rewrite S4 in W1. apply W1. rewrite Hasc.
    apply (Z3 t k Ht). rewrite <- Otask by exact Hat. rewrite <- O3 by (apply NBt; exact Hat). rewrite <- O4 by exact Nl. exact Gk.
  - intros t Ht. rewrite Acf in Ht. destruct (G6 t Ht) as (k & k' & Gk & Gk' & W).
    assert (Htt : In t (tasks s)) by (unfold tasks; rewrite !in_app_iff; auto).
    assert (Hat := in_map tl_cstr _ _ Htt).
    assert (Ha : In (tl_cstr t) (map tl_cstr (f_acts s))) by (apply in_map; exact Ht).
    assert (Nf' : ~ In (tl_cstr t) (map tl_cstr (f_forces s))) by (intros X; eapply (NoDup_app_inv _ _ _ NDr); eauto).
    assert (Nm' : ~ In (tl_cstr t) (map tl_cstr (f_motions s))) by (intros X; eapply (NoDup_app_inv _ _ _ NDt); [exact X|apply in_or_app; auto]).
    assert (N5 : f_nv s5 = f_nv s) by (rewrite R25; exact N2).
    assert (U5 : f_nu s5 = f_nu s) by (rewrite R25; exact U2).
    assert (K5 : f_k s5 = f_k s) by (rewrite R25; exact K2).
    unfold act_wrote in W. rewrite N5, U5, K5 in W. destruct W as [W0 W]. destruct W as (Wb & W1 & W2).
    { apply (Tcell t k Htt). rewrite <- Otask by exact Hat. rewrite <- O3 by (apply NBt; exact Hat).
      rewrite <- O4 by exact Nm'. rewrite <- O5 by exact Nf'. exact Gk. }
    assert (Bias : forall i, (match c_kind (e_task e (tl_task t)) with
                | CBound => vget (d_ha d) i
                | _ => nsum (f_nv s - f_nu s) (fun q => (mget (c_mat (e_task e (tl_task t))) i q * vget (d_ha d) q)%num) end)
                = act_bias sf e (e_task e (tl_task t)) i).
    { intros i. unfold act_bias. rewrite Nf, Uf, Mef.
      assert (Hh : forall q, vget (d_ha d) q = (vget (e_nle e) (f_nu s + q) - ext_torque e (f_meas s) (f_nu s + q))%num).
      { intros q. rewrite I2, Mn2. change (f_hfext s2) with hf. rewrite Xt. reflexivity. }
      destruct (c_kind (e_task e (tl_task t))); try (apply nsum_ext; intros q _; rewrite Hh; reflexivity). apply Hh. }
    exists k'. split; [exact Gk'|]. split; [exact W0|]. split; [rewrite Nf, Uf; exact Wb|]. split.
    + intros i j Hi Hj. rewrite Vf in Hj. rewrite W1 by exact Hj. unfold act_mat. rewrite Nf, Uf, Jsf.
      destruct (c_kind (e_task e (tl_task t))); destruct (j <? f_nv s);
        try (apply nsum_ext; intros q _; rewrite ?I1, ?I3, ?Mm2; reflexivity); rewrite ?I1, ?I3, ?Mm2; reflexivity.
    + assert (Sh : forall (v z : vec K) b b', (forall i, b i = b' i) -> shifted v z b -> shifted v z b').
      { intros v z b b' Hb [S1 S2]. split; [exact S1|]. intros i Hi. rewrite S2 by exact Hi. rewrite Hb. reflexivity. }
      cbv zeta in W2. destruct (c_kind (e_task e (tl_task t))).
      * eapply Sh; [exact Bias|exact W2].
      * destruct W2 as [W3 W4]. split; (eapply Sh; [exact Bias|assumption]).
      * destruct W2 as [W3 W4]. split; (eapply Sh; [exact Bias|assumption]).
Qed.

End Data.
