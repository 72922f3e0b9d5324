(** Calls with well-formed arguments never fail an assertion: totality lemmas. *)
From Coq Require Import String List Arith Bool ZArith Lia Permutation.
From Verif Require Import Scalar Outcome Linalg Constraint Formulation ListUtil FormSpec FormInv FormInvB FormInvC FormOps.
Import ListNotations.
Open Scope string_scope.
Open Scope list_scope.
Open Scope nat_scope.

Section Safe.
Context {K : num}.
Variable dbg : bool.
Local Notation fstate := (fstate K).
Local Notation step := (step dbg).
Implicit Types (s : fstate) (h : list (constr K)) (w : K).

(** Every constraint is consistently sized; robot data have the robot's size. *)
Record invS s : Prop := mkInvS {
  is_cells : Forall sized (f_heap s);
  is_mass : mrows (f_mass s) = f_nv s /\ mcols (f_mass s) = f_nv s;
  is_nle : vlen (f_nle s) = f_nv s;
  is_hfext : vlen (f_hfext s) = f_nv s;
  is_nu : f_nu s <= f_nv s }.

Lemma sized_nth h a c : Forall sized h -> nth_error h a = Some c -> sized c.
Proof. intros H E. rewrite Forall_forall in H. apply H. eapply nth_error_In; eauto. Qed.
Lemma sized_upd h a c : Forall sized h -> sized c -> Forall sized (lupd h a c).
Proof.
  revert a; induction h as [|x h IH]; intros [|a] Hf Hc; simpl; auto; inversion Hf; subst; constructor; auto.
Qed.

Lemma sized_new_eq n r c : sized (new_eq (K:=K) n r c).
Proof. unfold sized, crows, new_eq; simpl. rewrite Nat.eqb_refl. reflexivity. Qed.
Lemma sized_new_ineq n r c : sized (new_ineq (K:=K) n r c).
Proof. unfold sized, crows, new_ineq; simpl. rewrite Nat.eqb_refl. reflexivity. Qed.
Lemma sized_new_task n kd r c : sized (new_task_cstr (K:=K) n kd r c).
Proof. destruct kd; [apply sized_new_eq| |]; apply sized_new_ineq. Qed.

(** ** Resizing *)
Lemma cresize_total (c : constr K) r n : c_kind c <> CBound -> exists c', cresize c r n = Some c' /\ sized c' /\ c_kind c' = c_kind c.
Proof.
  intros Hk. unfold cresize. destruct (c_kind c) eqn:E; try contradiction.
  - eexists. split; [reflexivity|]. split; [|reflexivity]. unfold sized, crows; simpl. rewrite Nat.eqb_refl. reflexivity.
  - eexists. split; [reflexivity|]. split; [|reflexivity]. unfold sized, crows; simpl. rewrite Nat.eqb_refl. reflexivity.
Qed.

Definition nobound (c : constr K) := c_kind c <> CBound.

Lemma resize_fold_total n (l : list (K * nat)) : forall h,
  Forall (fun e => snd e < List.length h) l -> Forall sized h -> Forall nobound h ->
  exists h', ofold (fun h e => resize_at n h (snd e)) l h = Some h' /\ Forall sized h' /\ Forall nobound h' /\
             List.length h' = List.length h.
Proof.
  induction l as [|e l IH]; intros h Hv Hs Hb; simpl.
  - eauto.
  - inversion Hv; subst. unfold resize_at at 1.
    destruct (nth_error h (snd e)) as [c|] eqn:E; [|apply nth_error_None in E; lia].
    simpl. assert (Sc := sized_nth _ _ _ Hs E). unfold sized in Sc. rewrite Sc. simpl.
    assert (Bc : nobound c) by (rewrite Forall_forall in Hb; apply Hb; eapply nth_error_In; eauto).
    destruct (cresize_total c (mrows (c_mat c)) n Bc) as (c' & Ec & Sc' & Kc'). rewrite Ec. simpl.
    destruct (IH (lupd h (snd e) c')) as (h' & H1' & H2' & H3' & H4').
    + rewrite lupd_length. assumption.
    + apply sized_upd; assumption.
    + clear - Hb Bc Kc'. revert e; revert Hb. generalize (@snd K nat). intros f Hb e. generalize (f e). clear f e.
      induction Hb as [|x h Hx Hb IH]; intros [|a]; simpl; constructor; auto. unfold nobound. congruence.
    + exists h'. rewrite lupd_length in H4'. auto.
Qed.

Lemma heap_nobound s : Forall (fun sh : string * ckind * nat * nat => snd (fst (fst sh)) <> CBound) (shapes s) ->
  Forall nobound (f_heap s).
Proof.
  unfold shapes. rewrite !Forall_forall. intros H c Hc. apply (H (shape c)). apply in_map. exact Hc.
Qed.

Lemma resize_total s : preA s -> Forall sized (f_heap s) ->
  exists s', resize_hqp s = Some s' /\ Forall sized (f_heap s').
Proof.
  intros [Hb Hk Ha] Hs. unfold resize_hqp. destruct Hb as [c0 Hb].
  apply nth_shape in Hb. destruct Hb as (b & Eb & Sb). rewrite Eb. simpl.
  assert (Kb : nobound b).
  { assert (H := heap_nobound s Hk). rewrite Forall_forall in H. apply H. eapply nth_error_In; eauto. }
  destruct (cresize_total b (f_nu s) (f_nv s + f_k s) Kb) as (b' & Eb' & Sb' & Kb'). rewrite Eb'. simpl.
  destruct (resize_fold_total (f_nv s + f_k s) (concat (f_hqp s)) (lupd (f_heap s) (f_base s) b')) as (h' & E & H1 & _ & _).
  - rewrite lupd_length. exact Ha.
  - apply sized_upd; assumption.
  - assert (H := heap_nobound s Hk). rewrite Forall_forall in *.
    intros c Hc. apply In_nth_error in Hc. destruct Hc as [i Hi].
    destruct (Nat.eq_dec (f_base s) i) as [<-|Ne].
    + rewrite nth_error_lupd_eq in Hi by (apply nth_error_Some; congruence). injection Hi as <-.
      unfold nobound; congruence.
    + rewrite nth_error_lupd_neq in Hi by exact Ne. apply H. eapply nth_error_In; eauto.
  - rewrite E. simpl. eexists; split; [reflexivity|exact H1].
Qed.

(** ** Removing a contact that is present *)
Lemma priority_found h n ls : In n (map (fun e : K * nat => name_at h (snd e)) (concat ls)) ->
  exists p, task_priority h n ls = Some p.
Proof.
  induction ls as [|l ls IH]; simpl; [intros []|]. rewrite map_app. intros Hi.
  destruct (level_has h n l) eqn:E; [eauto|].
  apply in_app_or in Hi. destruct Hi as [Hi|Hi].
  - exfalso. apply in_map_iff in Hi. destruct Hi as (e & En & He).
    assert (X : level_has h n l = true); [|congruence].
    unfold level_has. apply existsb_exists. exists e. split; [exact He|]. apply String.eqb_eq; exact En.
  - destruct (IH Hi) as [p Hp]. rewrite Hp. eauto.
Qed.

Lemma contact_in_names s n : invA s -> invB s -> In n (contact_names s) ->
  In (n ++ "_motion_task")%string (hqp_names s) /\ In (n ++ "_force_constraint")%string (hqp_names s) /\
  In (n ++ "_force_reg_task")%string (hqp_names s).
Proof.
  intros HA HB H. unfold contact_names in H. apply in_map_iff in H. destruct H as (c & Ec & Hc).
  destruct (b_con _ HB c Hc) as ([[[[m nf] mr] fr] rr] & HC).
  assert (Em := proj1 (con_name _ _ _ _ _ _ _ HC)). rewrite Ec in Em. subst m.
  destruct HC as (_ & Hm & Hf & Hr & (i & Lm) & Lf & Lr).
  rewrite hqp_names_addr.
  repeat split; apply in_map_iff.
  - exists (cl_motion c). split; [eapply info_name; exact Hm|eapply in_level_in; exact Lm].
  - exists (cl_force c). split; [eapply info_name; exact Hf|eapply in_level_in; exact Lf].
  - exists (cl_reg c). split; [eapply info_name; exact Hr|eapply in_level_in; exact Lr].
Qed.

Lemma erase_heap s n : f_heap (fst (erase_hqp s n)) = f_heap s.
Proof. apply erase_frame. Qed.

Lemma erase_keeps s n m : NoDup (hqp_names s) -> m <> n -> In m (hqp_names s) ->
  In m (hqp_names (fst (erase_hqp s n))).
Proof.
  intros Hd Hne Hi. rewrite erase_hqp_drop by exact Hd. unfold hqp_names in *. simpl.
  unfold drop. rewrite concat_map_filter. apply in_map_iff in Hi. destruct Hi as (e & Ee & He).
  apply in_map_iff. exists e. split; [exact Ee|]. apply filter_In. split; [exact He|].
  apply negb_true_iff. apply String.eqb_neq. congruence.
Qed.
Lemma erase_nodup s n : NoDup (hqp_names s) -> NoDup (hqp_names (fst (erase_hqp s n))).
Proof. intros Hd. rewrite erase_hqp_drop by exact Hd. apply drop_names; exact Hd. Qed.

Lemma take_contact_objs s s' n l : f_objs s' = f_objs s -> take_contact s' n l = take_contact s n l.
Proof.
  intros Ho. induction l as [|c l IH]; simpl; [reflexivity|].
  unfold cl_name, cobj_at. rewrite Ho, IH. reflexivity.
Qed.

Lemma remove_now_total s n : invA s -> invB s -> Forall sized (f_heap s) -> In n (contact_names s) ->
  exists s', remove_contact_now dbg s n = Ret s' true /\ Forall sized (f_heap s').
Proof.
  intros HA HB HS Hn.
  destruct (contact_in_names s n HA HB Hn) as (Nm & Nf & Nr).
  assert (Hd := b_names _ HB).
  unfold remove_contact_now.
  destruct (priority_found (f_heap s) (n ++ "_motion_task")%string (f_hqp s) Nm) as [p Hp]. rewrite Hp.
  cbn [obind].
  assert (F1 := proj2 (erase_hqp_found s (n ++ "_motion_task")%string) Nm).
  assert (D1 := erase_nodup s (n ++ "_motion_task")%string Hd).
  assert (Nf1 := erase_keeps s (n ++ "_motion_task")%string _ Hd (fun X => sfx_mf n n (eq_sym X)) Nf).
  assert (Nr1 := erase_keeps s (n ++ "_motion_task")%string _ Hd (fun X => sfx_mr n n (eq_sym X)) Nr).
  assert (G1 := erase_frame s (n ++ "_motion_task")%string).
  assert (A1 := invA_erase s (n ++ "_motion_task")%string HA).
  destruct (erase_hqp s (n ++ "_motion_task")%string) as [s1 b1]. simpl fst in *. simpl snd in *. subst b1.
  rewrite assert_true. cbn [obind].
  assert (F2 := proj2 (erase_hqp_found s1 (n ++ "_force_constraint")%string) Nf1).
  assert (D2 := erase_nodup s1 (n ++ "_force_constraint")%string D1).
  assert (Nr2 := erase_keeps s1 (n ++ "_force_constraint")%string _ D1 (fun X => sfx_fr n n (eq_sym X)) Nr1).
  assert (G2 := erase_frame s1 (n ++ "_force_constraint")%string).
  assert (A2 := invA_erase s1 (n ++ "_force_constraint")%string A1).
  destruct (erase_hqp s1 (n ++ "_force_constraint")%string) as [s2 b2]. simpl fst in *. simpl snd in *. subst b2.
  rewrite assert_true. cbn [obind].
  assert (F3 := proj2 (erase_hqp_found s2 (n ++ "_force_reg_task")%string) Nr2).
  assert (G3 := erase_frame s2 (n ++ "_force_reg_task")%string).
  assert (A3 := invA_erase s2 (n ++ "_force_reg_task")%string A2).
  destruct (erase_hqp s2 (n ++ "_force_reg_task")%string) as [s3 b3]. simpl fst in *. simpl snd in *. subst b3.
  rewrite assert_true. cbn [obind].
  destruct G1 as (G1a & G1b & G1c & G1d). destruct G2 as (G2a & G2b & G2c & G2d).
  destruct G3 as (G3a & G3b & G3c & G3d).
  assert (Gh : f_heap s3 = f_heap s) by congruence.
  assert (Go : f_objs s3 = f_objs s) by congruence.
  assert (Gc : f_contacts s3 = f_contacts s) by congruence.
  rewrite (take_contact_objs s s3) by exact Go. rewrite Gc.
  assert (HT := take_contact_names s n HA HB).
  destruct (take_contact s n (f_contacts s)) as [[c rest]|]; [|destruct HT as [_ HT]; contradiction].
  destruct HT as (_ & Hc & En).
  destruct (b_con _ HB c Hc) as ([[[[m nf] mr] fr] rr] & HC).
  destruct HC as (_ & Im & If & _ & _ & _ & _).
  assert (Cm : exists cm, nth_error (f_heap s) (cl_motion c) = Some cm).
  { apply info_lt in Im. destruct (nth_error (f_heap s) (cl_motion c)) eqn:X; [eauto|].
    apply nth_error_None in X; lia. }
  assert (Cf : exists cf, nth_error (f_heap s) (cl_force c) = Some cf).
  { apply info_lt in If. destruct (nth_error (f_heap s) (cl_force c)) eqn:X; [eauto|].
    apply nth_error_None in X; lia. }
  destruct Cm as [cm Ecm]. destruct Cf as [cf Ecf].
  assert (Sm := sized_nth _ _ _ HS Ecm). assert (Sf := sized_nth _ _ _ HS Ecf). unfold sized in Sm, Sf.
  assert (Hr : forall z1 z2 z3 r, exists s4,
     resize_hqp (w_contacts (w_in (w_eq (w_k s3 z1) z2) z3) r) = Some s4 /\ Forall sized (f_heap s4)).
  { intros z1 z2 z3 r. apply resize_total.
    - destruct (invA_preA _ A3). constructor; auto.
    - cbn [f_heap w_contacts w_in w_eq w_k]. rewrite Gh. exact HS. }
  assert (Hr' : forall z1 z3 r, exists s4,
     resize_hqp (w_contacts (w_in (w_k s3 z1) z3) r) = Some s4 /\ Forall sized (f_heap s4)).
  { intros z1 z3 r. apply resize_total.
    - destruct (invA_preA _ A3). constructor; auto.
    - cbn [f_heap w_contacts w_in w_eq w_k]. rewrite Gh. exact HS. }
  destruct (p =? 0).
  - cbn [f_heap w_k w_eq obind]. rewrite Gh, Ecm. cbn [obind]. rewrite Sm. cbn [obind f_heap w_k w_eq].
    rewrite Gh, Ecf. cbn [obind]. rewrite Sf. cbn [obind].
    match goal with |- context [resize_hqp ?S] => destruct (Hr (f_k s3 - cl_nforce s3 c) (f_eq s3 - Z.of_nat (mrows (c_mat cm)))%Z
        (f_in s3 - Z.of_nat (mrows (c_mat cf)))%Z rest) as (s4 & E4 & S4) end.
    cbn [f_eq f_in w_k w_eq w_in]. rewrite E4. cbn [obind]. eexists; split; [reflexivity|exact S4].
  - cbn [obind f_heap w_k]. rewrite Gh, Ecf. cbn [obind]. rewrite Sf. cbn [obind].
    destruct (Hr' (f_k s3 - cl_nforce s3 c) (f_in s3 - Z.of_nat (mrows (c_mat cf)))%Z rest) as (s4 & E4 & S4).
    cbn [f_eq f_in w_k w_eq w_in]. rewrite E4. cbn [obind]. eexists; split; [reflexivity|exact S4].
Qed.

(** ** Adding a contact *)
Lemma push_total {A} (l : list (list A)) i e : i < List.length l -> exists l', push_level l i e = Some l' /\ List.length l' = List.length l.
Proof.
  intros H. unfold push_level. destruct (nth_error l i) eqn:E; [|apply nth_error_None in E; lia].
  simpl. eexists; split; [reflexivity|]. apply lupd_length.
Qed.

Lemma add_contact_total s o wr wm lvl x : invA s -> Forall sized (f_heap s) ->
  nth_error (f_objs s) o = Some x -> lvl < List.length (f_hqp s) ->
  exists s', add_contact s o wr wm lvl = Ret s' true /\ Forall sized (f_heap s').
Proof.
  intros HA HS Hx Hl. unfold add_contact. rewrite Hx. cbn [obind].
  destruct (resize_total (w_k s (f_k s + co_nforce x))) as (s1 & E1 & S1).
  { destruct (invA_preA _ HA). constructor; auto. }
  { exact HS. }
  rewrite E1. cbn [obind].
  assert (Eh : f_hqp s1 = f_hqp s).
  { unfold resize_hqp in E1. repeat (ob E1). injection E1 as <-. reflexivity. }
  assert (L := ia_lev _ HA).
  cbn [f_hqp w_heap]. rewrite Eh.
  match goal with |- context [push_level (f_hqp s) lvl ?e] => destruct (push_total (f_hqp s) lvl e Hl) as (q1 & P1 & L1) end.
  rewrite P1. cbn [obind f_hqp w_heap w_hqp].
  match goal with |- context [push_level q1 0 ?e] => destruct (push_total q1 0 e) as (q2 & P2 & L2); [lia|] end.
  rewrite P2. cbn [obind f_hqp w_heap w_hqp].
  match goal with |- context [push_level q2 1 ?e] => destruct (push_total q2 1 e) as (q3 & P3 & L3); [lia|] end.
  rewrite P3. cbn [obind f_hqp w_heap w_hqp].
  eexists; split; [reflexivity|].
  assert (Hh : forall q : fstate, f_heap (if lvl =? 0 then w_eq q (f_eq q + Z.of_nat (co_mrows x))%Z else q) = f_heap q)
    by (intros; destruct (lvl =? 0); reflexivity).
  cbn [f_heap w_in]. rewrite Hh. cbn [f_heap w_contacts w_hqp w_heap].
  repeat (apply Forall_app; split); auto; repeat constructor; auto using sized_new_eq, sized_new_ineq.
Qed.

(** ** computeProblemData *)
Lemma owner_shape s a n kd r : invA s -> info s a = Some (n, kd, r) ->
  In a (map snd (concat (f_hqp s))) -> nth_error (shapes s) a = Some (n, kd, r, nVar s).
Proof.
  intros HA Hi Hin. assert (H := ia_cols _ HA). apply in_map_iff in Hin. destruct Hin as (e & <- & He).
  rewrite Forall_forall in H. destruct (H e He) as (n' & kd' & r' & E).
  unfold info in Hi. rewrite E in Hi. simpl in Hi. injection Hi as -> -> ->. exact E.
Qed.

Lemma on_heap_ok h a n kd r nc f :
  nth_error (map shape h) a = Some (n, kd, r, nc) -> Forall sized h ->
  (forall c, c_kind c = kd -> mrows (c_mat c) = r -> mcols (c_mat c) = nc ->
     exists c', f c = Some c' /\ shape c' = shape c /\ sized c') ->
  exists h', on_heap (K:=K) h a f = Some h' /\ map shape h' = map shape h /\ Forall sized h'.
Proof.
  intros Hn Hs Hf. rewrite nth_error_map in Hn. destruct (nth_error h a) as [c|] eqn:E; [|discriminate].
  simpl in Hn. unfold shape in Hn. injection Hn as _ Hk Hr Hc.
  destruct (Hf c Hk Hr Hc) as (c' & Ec & Sc & Zc).
  exists (lupd h a c'). unfold on_heap. rewrite E. simpl. rewrite Ec. split; [reflexivity|]. split.
  - eapply shape_lupd; eauto.
  - apply sized_upd; assumption.
Qed.

Lemma mset_cols_total (m b : mat K) j n : j + n <= mcols m -> mcols b = n -> mrows b = mrows m ->
  exists m', mset_cols m j n b = Some m' /\ mrows m' = mrows m /\ mcols m' = mcols m.
Proof.
  intros H1 H2 H3. unfold mset_cols.
  apply Nat.leb_le in H1. apply Nat.eqb_eq in H2. apply Nat.eqb_eq in H3. rewrite H1, H2, H3.
  eexists. split; [reflexivity|]. split; reflexivity.
Qed.
Lemma mset_right_total (m b : mat K) n : n <= mcols m -> mcols b = n -> mrows b = mrows m ->
  exists m', mset_right m n b = Some m' /\ mrows m' = mrows m /\ mcols m' = mcols m.
Proof.
  intros H1 H2 H3. unfold mset_right. assert (H1' := H1). apply Nat.leb_le in H1'. rewrite H1'.
  apply mset_cols_total; auto. lia.
Qed.

Lemma put_cols_total (c : constr K) j n m : j + n <= mcols (c_mat c) -> mcols m = n -> mrows m = mrows (c_mat c) ->
  exists c', put_cols j n m c = Some c' /\ shape c' = shape c.
Proof.
  intros H1 H2 H3. unfold put_cols. destruct (mset_cols_total (c_mat c) m j n H1 H2 H3) as (a & E & R1 & R2).
  rewrite E. simpl. eexists; split; [reflexivity|]. unfold shape; simpl. congruence.
Qed.
Lemma put_right_total (c : constr K) n m : n <= mcols (c_mat c) -> mcols m = n -> mrows m = mrows (c_mat c) ->
  exists c', put_right n m c = Some c' /\ shape c' = shape c.
Proof.
  intros H1 H2 H3. unfold put_right. destruct (mset_right_total (c_mat c) m n H1 H2 H3) as (a & E & R1 & R2).
  rewrite E. simpl. eexists; split; [reflexivity|]. unfold shape; simpl. congruence.
Qed.
Lemma set_vec_total (c : constr K) v : c_kind c = CEq -> vlen v = mrows (c_mat c) ->
  exists c', cset_vec c v = Some c' /\ shape c' = shape c /\ sized c'.
Proof.
  intros Hk Hv. unfold cset_vec. rewrite Hk. eexists; split; [reflexivity|]. split.
  - unfold shape; simpl. congruence.
  - unfold sized, crows; simpl. rewrite Hv, Nat.eqb_refl. reflexivity.
Qed.
Lemma set_bounds_total (c : constr K) l u : c_kind c = CIneq -> vlen l = mrows (c_mat c) -> vlen u = mrows (c_mat c) ->
  exists c1, cset_lb c l = Some c1 /\ exists c', cset_ub c1 u = Some c' /\ shape c' = shape c /\ sized c'.
Proof.
  intros Hk Hl Hu. unfold cset_lb. rewrite Hk. eexists; split; [reflexivity|].
  unfold cset_ub; simpl. eexists; split; [reflexivity|]. split.
  - unfold shape; simpl. congruence.
  - unfold sized, crows; simpl. rewrite Hl, Hu, Nat.eqb_refl. reflexivity.
Qed.

Lemma shape_fields (c c' : constr K) : shape c' = shape c ->
  c_name c' = c_name c /\ c_kind c' = c_kind c /\ mrows (c_mat c') = mrows (c_mat c) /\ mcols (c_mat c') = mcols (c_mat c).
Proof. unfold shape. intros H; injection H; auto. Qed.

Lemma mmul_total (a b : mat K) : mcols a = mrows b -> exists m, mmul a b = Some m /\ mrows m = mrows a /\ mcols m = mcols b.
Proof. intros H. unfold mmul. apply Nat.eqb_eq in H. rewrite H. eexists; split; [reflexivity|]. auto. Qed.
Lemma mvec_total (a : mat K) v : mcols a = vlen v -> exists m, mvec a v = Some m /\ vlen m = mrows a.
Proof. intros H. unfold mvec. apply Nat.eqb_eq in H. rewrite H. eexists; split; [reflexivity|]. auto. Qed.
Lemma vsub_total (a b : vec K) : vlen a = vlen b -> exists m, vsub a b = Some m /\ vlen m = vlen a.
Proof. intros H. unfold vsub. apply Nat.eqb_eq in H. rewrite H. eexists; split; [reflexivity|]. auto. Qed.
Lemma vadd_total (a b : vec K) : vlen a = vlen b -> exists m, vadd a b = Some m /\ vlen m = vlen a.
Proof. intros H. unfold vadd. apply Nat.eqb_eq in H. rewrite H. eexists; split; [reflexivity|]. auto. Qed.
Lemma mset_rows_total (m b : mat K) j n : j + n <= mrows m -> mrows b = n -> mcols b = mcols m ->
  exists m', mset_rows m j n b = Some m' /\ mrows m' = mrows m /\ mcols m' = mcols m.
Proof.
  intros H1 H2 H3. unfold mset_rows.
  apply Nat.leb_le in H1. apply Nat.eqb_eq in H2. apply Nat.eqb_eq in H3. rewrite H1, H2, H3.
  eexists. split; [reflexivity|]. split; reflexivity.
Qed.
Lemma vsegment_total (v : vec K) i n : i + n <= vlen v -> exists u, vsegment v i n = Some u /\ vlen u = n.
Proof. intros H. unfold vsegment. apply Nat.leb_le in H. rewrite H. eexists; split; [reflexivity|]. auto. Qed.
Lemma vtail_total (v : vec K) n : n <= vlen v -> exists u, vtail v n = Some u /\ vlen u = n.
Proof. intros H. unfold vtail. assert (H' := H). apply Nat.leb_le in H. rewrite H. apply vsegment_total. lia. Qed.
Lemma vhead_total (v : vec K) n : n <= vlen v -> exists u, vhead v n = Some u /\ vlen u = n.
Proof. intros H. apply vsegment_total. lia. Qed.
Lemma mrowsblk_total (m : mat K) i n : i + n <= mrows m -> exists u, mrowsblk m i n = Some u /\ mrows u = n /\ mcols u = mcols m.
Proof. intros H. unfold mrowsblk. apply Nat.leb_le in H. rewrite H. eexists; split; [reflexivity|]. auto. Qed.
Lemma mcolsblk_total (m : mat K) i n : i + n <= mcols m -> exists u, mcolsblk m i n = Some u /\ mcols u = n /\ mrows u = mrows m.
Proof. intros H. unfold mcolsblk. apply Nat.leb_le in H. rewrite H. eexists; split; [reflexivity|]. auto. Qed.
Lemma mbottom_total (m : mat K) n : n <= mrows m -> exists u, mbottom m n = Some u /\ mrows u = n /\ mcols u = mcols m.
Proof. intros H. unfold mbottom. assert (H' := H). apply Nat.leb_le in H. rewrite H. apply mrowsblk_total. lia. Qed.
Lemma mright_total (m : mat K) n : n <= mcols m -> exists u, mright m n = Some u /\ mcols u = n /\ mrows u = mrows m.
Proof. intros H. unfold mright. assert (H' := H). apply Nat.leb_le in H. rewrite H. apply mcolsblk_total. lia. Qed.

(** States that differ from [s] only in the contents of constraints and J_c. *)
Definition filled s s1 : Prop :=
  same s s1 /\ Forall sized (f_heap s1) /\ s1 = w_Jc (w_heap s (f_heap s1)) (f_Jc s1).

Lemma tiles_bound a l b o n : tiles a l b -> In (o, n) l -> o + n <= b /\ a <= o.
Proof.
  revert a; induction l as [|[o' n'] l IH]; simpl; intros a Ht Hi; [destruct Hi|].
  destruct Ht as [-> Ht]. destruct Hi as [Hi|Hi].
  - injection Hi as <- <-. apply tiles_sum in Ht. lia.
  - destruct (IH _ Ht Hi). lia.
Qed.

Lemma slot_bound s c : invA s -> In c (f_contacts s) -> cl_index c + cl_nforce s c <= f_k s.
Proof.
  intros HA Hc. assert (T := ia_tile _ HA). eapply tiles_bound in T; [exact (proj1 T)|].
  unfold slots. apply in_map_iff. exists c. auto.
Qed.

Lemma same_shapes_heap s s1 : same s s1 -> map shape (f_heap s1) = shapes s.
Proof. intros H. exact (sm_sh _ _ H). Qed.

Lemma comp_contact_total s s1 e cl :
  invA s -> invB s -> filled s s1 -> In cl (f_contacts s) ->
  (forall x, nth_error (f_objs s) (cl_obj cl) = Some x -> contact_data_ok (f_nv s) e (cl_obj cl) x) ->
  exists s2, comp_contact s1 e cl = Some s2 /\ filled s s2.
Proof.
  intros HA HB (Sm & Sz & Es) Hc Hd.
  destruct (b_con _ HB cl Hc) as ([[[[n nf] mr] fr] rr] & HC).
  destruct HC as (Ho & Im & If & Ir & (i & Lm) & Lf & Lr).
  rewrite nth_error_map in Ho. destruct (nth_error (f_objs s) (cl_obj cl)) as [x|] eqn:Ex; [|discriminate].
  simpl in Ho. unfold oshape in Ho. injection Ho as En Enf Emr Efr Err.
  specialize (Hd x eq_refl). unfold contact_data_ok in Hd.
  assert (Eo : f_objs s1 = f_objs s) by (rewrite Es; reflexivity).
  assert (Env : f_nv s1 = f_nv s) by (rewrite Es; reflexivity).
  assert (Hsh := same_shapes_heap _ _ Sm).
  unfold comp_contact, cobj_at. rewrite Eo, Ex. cbn [obind]. rewrite Env.
  destruct (e_cmotion e (cl_obj cl)) as [A b]. destruct (e_creg e (cl_obj cl)) as [C d].
  destruct Hd as (D1 & D2 & D3 & D4 & D5 & D6 & D7 & D8 & D9).
  assert (Sb := slot_bound s cl HA Hc). unfold cl_nforce, cobj_at in Sb. rewrite Ex in Sb.
  assert (Hm := owner_shape s _ _ _ _ HA Im (in_level_in _ _ _ Lm)).
  assert (Hf := owner_shape s _ _ _ _ HA If (in_level_in _ _ _ Lf)).
  assert (Hr := owner_shape s _ _ _ _ HA Ir (in_level_in _ _ _ Lr)).
  unfold nVar in *.
  destruct (on_heap_ok (f_heap s1) (cl_motion cl) _ _ _ _
    (fun c => do c <- put_cols 0 (f_nv s) A c; cset_vec c b) (eq_trans (f_equal (fun l => nth_error l _) Hsh) Hm) Sz) as (h1 & E1 & S1 & Z1).
  { intros c K1 K2 K3. destruct (put_cols_total c 0 (f_nv s) A) as (c1 & P1 & Q1); [lia|lia|congruence|].
    rewrite P1. cbn [obind]. destruct (shape_fields _ _ Q1) as (U1 & U2 & U3 & U4).
    destruct (set_vec_total c1 b) as (c2 & P2 & Q2 & Q3); [congruence|congruence|].
    exists c2. rewrite P2. split; [reflexivity|]. split; [congruence|exact Q3]. }
  rewrite E1. cbn [obind].
  destruct (mmul_total (mtr (e_gen e (cl_obj cl))) A) as (TA & ET & TA1 & TA2); [simpl; congruence|].
  rewrite ET. cbn [obind]. simpl in TA1.
  destruct (mset_rows_total (f_Jc s1) TA (cl_index cl) (co_nforce x)) as (J & EJ & J1 & J2).
  { rewrite (sm_jr _ _ Sm), (ia_jr _ HA). exact Sb. }
  { congruence. }
  { rewrite (sm_jc _ _ Sm), (ia_jc _ HA). congruence. }
  rewrite EJ. cbn [obind].
  specialize (D6 (co_fmin x) (co_fmax x)). destruct (e_cforce e (cl_obj cl) (co_fmin x) (co_fmax x)) as [[B lb] ub].
  destruct D6 as (B1 & B2 & B3 & B4).
  destruct (on_heap_ok h1 (cl_force cl) _ _ _ _
    (fun c => do c <- put_cols (f_nv s + cl_index cl) (co_nforce x) B c; do c <- cset_lb c lb; cset_ub c ub)
    (eq_trans (f_equal (fun l => nth_error l _) (eq_trans S1 Hsh)) Hf) Z1) as (h2 & E2 & S2 & Z2).
  { intros c K1 K2 K3. destruct (put_cols_total c (f_nv s + cl_index cl) (co_nforce x) B) as (c1 & P1 & Q1); [lia|lia|congruence|].
    rewrite P1. cbn [obind]. destruct (shape_fields _ _ Q1) as (U1 & U2 & U3 & U4).
    destruct (set_bounds_total c1 lb ub) as (c2 & P2 & c3 & P3 & Q2 & Q3); [congruence|congruence|congruence|].
    exists c3. rewrite P2. cbn [obind]. split; [exact P3|]. split; [congruence|exact Q3]. }
  rewrite E2. cbn [obind].
  destruct (on_heap_ok h2 (cl_reg cl) _ _ _ _
    (fun c => do c <- put_cols (f_nv s + cl_index cl) (co_nforce x) C c; cset_vec c d)
    (eq_trans (f_equal (fun l => nth_error l _) (eq_trans S2 (eq_trans S1 Hsh))) Hr) Z2) as (h3 & E3 & S3 & Z3).
  { intros c K1 K2 K3. destruct (put_cols_total c (f_nv s + cl_index cl) (co_nforce x) C) as (c1 & P1 & Q1); [lia|lia|congruence|].
    rewrite P1. cbn [obind]. destruct (shape_fields _ _ Q1) as (U1 & U2 & U3 & U4).
    destruct (set_vec_total c1 d) as (c2 & P2 & Q2 & Q3); [congruence|congruence|].
    exists c2. rewrite P2. split; [reflexivity|]. split; [congruence|exact Q3]. }
  rewrite E3. cbn [obind]. eexists; split; [reflexivity|].
  split; [|split].
  - apply (same_trans _ _ _ Sm). apply (same_trans _ (w_heap s1 h3)).
    + apply same_heap. unfold shapes. congruence.
    + constructor; try reflexivity; assumption.
  - exact Z3.
  - rewrite Es. reflexivity.
Qed.

Lemma ofold_total {B} (f : fstate -> B -> option fstate) (P : fstate -> Prop) l :
  (forall x s, In x l -> P s -> exists s', f s x = Some s' /\ P s') ->
  forall s, P s -> exists s', ofold f l s = Some s' /\ P s'.
Proof.
  induction l as [|x l IH]; intros H s Hs; simpl; [eauto|].
  destruct (H x s (or_introl eq_refl) Hs) as (s1 & E & Hs1). rewrite E.
  apply IH; auto. intros y s2 Hy. apply H. right; exact Hy.
Qed.

Lemma force_slot_bound s n : invA s -> fst (force_slot s n) + snd (force_slot s n) <= nVar s.
Proof.
  intros HA. unfold force_slot, nVar. destruct (String.eqb n ""); [simpl; lia|].
  unfold find_contact. destruct (take_contact s n (f_contacts s)) as [[c r]|] eqn:E; [|simpl; lia].
  apply take_contact_spec in E. destruct E as (l1 & l2 & E & _). simpl.
  assert (H := slot_bound s c HA). rewrite E in H. specialize (H (in_elt _ _ _)). lia.
Qed.
Lemma force_slot_eq s s1 n : f_nv s1 = f_nv s -> f_k s1 = f_k s -> f_contacts s1 = f_contacts s ->
  f_objs s1 = f_objs s -> force_slot s1 n = force_slot s n.
Proof.
  intros E1 E2 E3 E4. unfold force_slot, find_contact. rewrite E1, E2, E3.
  destruct (String.eqb n ""); [reflexivity|].
  rewrite (take_contact_objs s s1) by exact E4.
  destruct (take_contact s n (f_contacts s)) as [[c r]|]; [|reflexivity].
  unfold cl_nforce, cobj_at. rewrite E4. reflexivity.
Qed.
Lemma force_slot_filled s s1 n : filled s s1 -> force_slot s1 n = force_slot s n.
Proof.
  intros (_ & _ & ->). unfold force_slot, find_contact. cbn [f_nv f_k f_contacts w_Jc w_heap].
  destruct (String.eqb n ""); [reflexivity|].
  rewrite (take_contact_objs s) by reflexivity. destruct (take_contact s n (f_contacts s)) as [[c r]|]; reflexivity.
Qed.

Lemma filled_heap s s1 h : filled s s1 -> map shape h = shapes s -> Forall sized h -> filled s (w_heap s1 h).
Proof.
  intros (Sm & Sz & Es) Hh Hz. split; [|split].
  - apply (same_trans _ _ _ Sm). apply same_heap. rewrite Hh. symmetry. exact (sm_sh _ _ Sm).
  - exact Hz.
  - rewrite Es. reflexivity.
Qed.

Lemma crows_eq (c : constr K) r : c_kind c = CEq -> crows c = Some r -> mrows (c_mat c) = r /\ vlen (c_vec c) = r.
Proof.
  unfold crows. intros -> H. destruct (Nat.eqb_spec (mrows (c_mat c)) (vlen (c_vec c))); [|discriminate].
  injection H as <-. auto.
Qed.
Lemma crows_ineq (c : constr K) r : c_kind c = CIneq -> crows c = Some r ->
  mrows (c_mat c) = r /\ vlen (c_lb c) = r /\ vlen (c_ub c) = r.
Proof.
  unfold crows. intros -> H. destruct (Nat.eqb_spec (mrows (c_mat c)) (vlen (c_lb c))); [|discriminate].
  destruct (Nat.eqb_spec (mrows (c_mat c)) (vlen (c_ub c))); [|discriminate].
  injection H as <-. auto.
Qed.
Lemma crows_bound (c : constr K) r : c_kind c = CBound -> crows c = Some r -> vlen (c_lb c) = r /\ vlen (c_ub c) = r.
Proof.
  unfold crows. intros -> H. destruct (Nat.eqb_spec (vlen (c_lb c)) (vlen (c_ub c))); [|discriminate].
  injection H as <-. auto.
Qed.

Lemma announced_of s t n kd r : nth_error (shapes s) (tl_cstr t) = Some (n, kd, r, nVar s) -> announced s t kd r.
Proof.
  intros H. apply nth_shape in H. destruct H as (c & E & S). unfold shape in S. injection S; intros.
  exists c. auto.
Qed.

Lemma kind_cases s a n kd r : invA s -> nth_error (shapes s) a = Some (n, kd, r, nVar s) -> kd = CEq \/ kd = CIneq.
Proof.
  intros HA H. assert (Hk := ia_kind _ HA). rewrite Forall_forall in Hk.
  apply nth_error_In in H. specialize (Hk _ H). simpl in Hk. destruct kd; auto. contradiction.
Qed.

(** Writing a well-formed task constraint into columns [j, j+n) of its cell. *)
Lemma fill_cell_total (c : constr K) kd r j n nc k :
  task_data_ok kd r n c -> (kd = CEq \/ kd = CIneq) -> j + n <= nc ->
  c_kind k = kd -> mrows (c_mat k) = r -> mcols (c_mat k) = nc ->
  exists k', match c_kind c with
    | CEq => do k <- put_cols j n (c_mat c) k; cset_vec k (c_vec c)
    | CIneq => do k <- put_cols j n (c_mat c) k; do k <- cset_lb k (c_lb c); cset_ub k (c_ub c)
    | CBound => do k <- put_cols j n (mident n n) k; do k <- cset_lb k (c_lb c); cset_ub k (c_ub c)
    end = Some k' /\ shape k' = shape k /\ sized k'.
Proof.
  intros (T1 & T2 & T3) Hkd Hj K1 K2 K3. destruct (c_kind c) eqn:Ek.
  - assert (kd = CEq) by (destruct Hkd as [->| ->]; [reflexivity|discriminate]). subst kd.
    destruct (crows_eq c r Ek T2) as [R1 R2].
    destruct (put_cols_total k j n (c_mat c)) as (c1 & P1 & Q1); [lia|lia|congruence|].
    rewrite P1. cbn [obind]. destruct (shape_fields _ _ Q1) as (U1 & U2 & U3 & U4).
    destruct (set_vec_total c1 (c_vec c)) as (c2 & P2 & Q2 & Q3); [congruence|congruence|].
    exists c2. split; [exact P2|]. split; [congruence|exact Q3].
  - assert (kd = CIneq) by (destruct Hkd as [->| ->]; [discriminate|reflexivity]). subst kd.
    destruct (crows_ineq c r Ek T2) as (R1 & R2 & R3).
    destruct (put_cols_total k j n (c_mat c)) as (c1 & P1 & Q1); [lia|lia|congruence|].
    rewrite P1. cbn [obind]. destruct (shape_fields _ _ Q1) as (U1 & U2 & U3 & U4).
    destruct (set_bounds_total c1 (c_lb c) (c_ub c)) as (c2 & P2 & c3 & P3 & Q2 & Q3); [congruence|congruence|congruence|].
    exists c3. rewrite P2. cbn [obind]. split; [exact P3|]. split; [congruence|exact Q3].
  - assert (kd = CIneq) by (destruct Hkd as [->| ->]; [discriminate|reflexivity]). subst kd.
    destruct (crows_bound c r Ek T2) as (R2 & R3).
    destruct (put_cols_total k j n (mident n n)) as (c1 & P1 & Q1); [lia|reflexivity|simpl; congruence|].
    rewrite P1. cbn [obind]. destruct (shape_fields _ _ Q1) as (U1 & U2 & U3 & U4).
    destruct (set_bounds_total c1 (c_lb c) (c_ub c)) as (c2 & P2 & c3 & P3 & Q2 & Q3); [congruence|congruence|congruence|].
    exists c3. rewrite P2. cbn [obind]. split; [exact P3|]. split; [congruence|exact Q3].
Qed.

Lemma task_shape s t : invA s -> invB s -> In t (tasks s) ->
  exists kd r, nth_error (shapes s) (tl_cstr t) = Some (tl_name t, kd, r, nVar s) /\ (kd = CEq \/ kd = CIneq).
Proof.
  intros HA HB Ht. destruct (b_task _ HB t Ht) as ((kd & r & Hi) & _ & Hl).
  assert (H := owner_shape s _ _ _ _ HA Hi (in_level_in _ _ _ Hl)).
  exists kd, r. split; [exact H|]. eapply kind_cases; eauto.
Qed.

Lemma comp_motion_total s s1 e t : invA s -> invB s -> filled s s1 -> In t (f_motions s) ->
  (forall kd r, announced s t kd r -> task_data_ok kd r (f_nv s) (e_task e (tl_task t))) ->
  exists s2, comp_motion e s1 t = Some s2 /\ filled s s2.
Proof.
  intros HA HB HF Ht Hd. assert (HF' := HF). destruct HF' as (Sm & Sz & Es).
  assert (Ht' : In t (tasks s)) by (unfold tasks; apply in_or_app; auto).
  destruct (task_shape s t HA HB Ht') as (kd & r & Hs & Hk).
  specialize (Hd kd r (announced_of _ _ _ _ _ Hs)).
  assert (Env : f_nv s1 = f_nv s) by (rewrite Es; reflexivity).
  assert (Hsh := same_shapes_heap _ _ Sm).
  unfold comp_motion. rewrite Env.
  match goal with |- context [on_heap _ _ ?f] =>
    destruct (on_heap_ok (f_heap s1) (tl_cstr t) _ _ _ _ f (eq_trans (f_equal (fun l => nth_error l _) Hsh) Hs) Sz)
      as (h1 & E1 & S1 & Z1) end.
  { intros k K1 K2 K3. apply (fill_cell_total (e_task e (tl_task t)) kd r 0 (f_nv s) (nVar s)); auto. unfold nVar; lia. }
  rewrite E1. cbn [obind]. eexists; split; [reflexivity|].
  apply filled_heap; auto. congruence.
Qed.

Lemma comp_force_total s s1 e t : invA s -> invB s -> filled s s1 -> In t (f_forces s) ->
  (forall kd r, announced s t kd r ->
     task_data_ok kd r (force_size s (e_assoc e (tl_task t))) (e_task e (tl_task t))) ->
  exists s2, comp_force e s1 t = Some s2 /\ filled s s2.
Proof.
  intros HA HB HF Ht Hd. assert (HF' := HF). destruct HF' as (Sm & Sz & Es).
  assert (Ht' : In t (tasks s)) by (unfold tasks; apply in_or_app; right; apply in_or_app; auto).
  destruct (task_shape s t HA HB Ht') as (kd & r & Hs & Hk).
  specialize (Hd kd r (announced_of _ _ _ _ _ Hs)).
  assert (Hsh := same_shapes_heap _ _ Sm).
  unfold comp_force. rewrite (force_slot_filled s s1) by exact HF.
  assert (Hb := force_slot_bound s (e_assoc e (tl_task t)) HA).
  unfold force_size in Hd. destruct (force_slot s (e_assoc e (tl_task t))) as [i0 sz]. simpl in Hb, Hd.
  match goal with |- context [on_heap _ _ ?f] =>
    destruct (on_heap_ok (f_heap s1) (tl_cstr t) _ _ _ _ f (eq_trans (f_equal (fun l => nth_error l _) Hsh) Hs) Sz)
      as (h1 & E1 & S1 & Z1) end.
  { intros k K1 K2 K3. apply (fill_cell_total (e_task e (tl_task t)) kd r i0 sz (nVar s)); auto. }
  rewrite E1. cbn [obind]. eexists; split; [reflexivity|].
  apply filled_heap; auto. congruence.
Qed.

(** Sizes of the dynamics blocks. *)
Definition dyn_ok s (d : dynb (K:=K)) : Prop :=
  let na := f_nv s - f_nu s in
  mrows (d_Ma d) = na /\ mcols (d_Ma d) = f_nv s /\ vlen (d_ha d) = na /\
  mrows (d_Ja d) = f_k s /\ mcols (d_Ja d) = na /\
  mrows (d_Mu d) = f_nu s /\ mcols (d_Mu d) = f_nv s /\ vlen (d_hu d) = f_nu s /\
  mrows (d_Ju d) = f_k s /\ mcols (d_Ju d) = f_nu s.

Lemma dyn_total s : invA s -> f_nu s <= f_nv s ->
  mrows (f_mass s) = f_nv s -> mcols (f_mass s) = f_nv s -> vlen (f_nle s) = f_nv s -> vlen (f_hfext s) = f_nv s ->
  exists d, dyn_blocks s = Some d /\ dyn_ok s d.
Proof.
  intros HA Hu M1 M2 Hn Hh. unfold dyn_blocks.
  assert (J1 := ia_jr _ HA). assert (J2 := ia_jc _ HA).
  destruct (mbottom_total (f_mass s) (f_nv s - f_nu s)) as (Ma & E1 & A1 & A2); [lia|]. rewrite E1. cbn [obind].
  destruct (vtail_total (f_nle s) (f_nv s - f_nu s)) as (h1 & E2 & A3); [lia|]. rewrite E2. cbn [obind].
  destruct (vtail_total (f_hfext s) (f_nv s - f_nu s)) as (x1 & E3 & A4); [lia|]. rewrite E3. cbn [obind].
  destruct (vsub_total h1 x1) as (ha & E4 & A5); [lia|]. rewrite E4. cbn [obind].
  destruct (mright_total (f_Jc s) (f_nv s - f_nu s)) as (Ja & E5 & A6 & A7); [lia|]. rewrite E5. cbn [obind].
  destruct (mrowsblk_total (f_mass s) 0 (f_nu s)) as (Mu & E6 & A8 & A9); [lia|]. unfold mtop. rewrite E6. cbn [obind].
  destruct (vhead_total (f_nle s) (f_nu s)) as (h2 & E7 & A10); [lia|]. rewrite E7. cbn [obind].
  destruct (vhead_total (f_hfext s) (f_nu s)) as (x2 & E8 & A11); [lia|]. rewrite E8. cbn [obind].
  destruct (vsub_total h2 x2) as (hu & E9 & A12); [lia|]. rewrite E9. cbn [obind].
  destruct (mcolsblk_total (f_Jc s) 0 (f_nu s)) as (Ju & E10 & A13 & A14); [lia|]. unfold mleft. rewrite E10. cbn [obind].
  eexists; split; [reflexivity|]. unfold dyn_ok; simpl. repeat split; congruence.
Qed.

Lemma comp_base_total s s1 d : invA s -> invB s -> filled s s1 -> dyn_ok s d ->
  exists s2, comp_base s1 d = Some s2 /\ filled s s2.
Proof.
  intros HA HB HF (D1 & D2 & D3 & D4 & D5 & D6 & D7 & D8 & D9 & D10).
  assert (HF' := HF). destruct HF' as (Sm & Sz & Es).
  assert (Env : f_nv s1 = f_nv s) by (rewrite Es; reflexivity).
  assert (Ek : f_k s1 = f_k s) by (rewrite Es; reflexivity).
  assert (Eb : f_base s1 = f_base s) by (rewrite Es; reflexivity).
  assert (Hsh := same_shapes_heap _ _ Sm).
  destruct (ia_base _ HA) as (c0 & Hs & ->).
  unfold comp_base. rewrite Env, Ek, Eb.
  match goal with |- context [on_heap _ _ ?f] =>
    destruct (on_heap_ok (f_heap s1) (f_base s) _ _ _ _ f (eq_trans (f_equal (fun l => nth_error l _) Hsh) Hs) Sz)
      as (h1 & E1 & S1 & Z1) end.
  { intros k K1 K2 K3. unfold nVar in K3.
    destruct (put_cols_total k 0 (f_nv s) (d_Mu d)) as (c1 & P1 & Q1); [lia|lia|congruence|].
    rewrite P1. cbn [obind]. destruct (shape_fields _ _ Q1) as (U1 & U2 & U3 & U4).
    destruct (put_right_total c1 (f_k s) (mopp (mtr (d_Ju d)))) as (c2 & P2 & Q2); [lia|simpl; lia|simpl; congruence|].
    rewrite P2. cbn [obind]. destruct (shape_fields _ _ Q2) as (V1 & V2 & V3 & V4).
    destruct (set_vec_total c2 (vopp (d_hu d))) as (c3 & P3 & Q3 & Q4); [congruence|simpl; congruence|].
    exists c3. split; [exact P3|]. split; [congruence|exact Q4]. }
  rewrite E1. cbn [obind]. eexists; split; [reflexivity|].
  apply filled_heap; auto. congruence.
Qed.

Lemma comp_act_total s s1 e d t : invA s -> invB s -> filled s s1 -> dyn_ok s d -> In t (f_acts s) ->
  (forall kd r, announced s t kd r -> task_data_ok kd r (f_nv s - f_nu s) (e_task e (tl_task t))) ->
  exists s2, comp_act e d s1 t = Some s2 /\ filled s s2.
Proof.
  intros HA HB HF (D1 & D2 & D3 & D4 & D5 & D6 & D7 & D8 & D9 & D10) Ht Hd.
  assert (HF' := HF). destruct HF' as (Sm & Sz & Es).
  assert (Ht' : In t (tasks s)) by (unfold tasks; apply in_or_app; right; apply in_or_app; auto).
  destruct (task_shape s t HA HB Ht') as (kd & r & Hs & Hk).
  specialize (Hd kd r (announced_of _ _ _ _ _ Hs)). destruct Hd as (T1 & T2 & T3).
  assert (Env : f_nv s1 = f_nv s) by (rewrite Es; reflexivity).
  assert (Ek : f_k s1 = f_k s) by (rewrite Es; reflexivity).
  assert (Hsh := same_shapes_heap _ _ Sm).
  unfold comp_act. rewrite Env, Ek.
  match goal with |- context [on_heap _ _ ?f] =>
    destruct (on_heap_ok (f_heap s1) (tl_cstr t) _ _ _ _ f (eq_trans (f_equal (fun l => nth_error l _) Hsh) Hs) Sz)
      as (h1 & E1 & S1 & Z1) end.
  { intros k K1 K2 K3. unfold nVar in K3. set (c := e_task e (tl_task t)) in *.
    destruct (c_kind c) eqn:Eck.
    - assert (kd = CEq) by (destruct Hk as [->| ->]; [reflexivity|discriminate]). subst kd.
      destruct (crows_eq c r Eck T2) as [R1 R2].
      destruct (mmul_total (c_mat c) (d_Ma d)) as (AM & X1 & X2 & X3); [congruence|]. rewrite X1. cbn [obind].
      destruct (put_cols_total k 0 (f_nv s) AM) as (c1 & P1 & Q1); [lia|lia|congruence|].
      rewrite P1. cbn [obind]. destruct (shape_fields _ _ Q1) as (U1 & U2 & U3 & U4).
      destruct (mmul_total (mopp (c_mat c)) (mtr (d_Ja d))) as (AJ & X4 & X5 & X6); [simpl; congruence|]. rewrite X4. cbn [obind].
      simpl in X5, X6.
      destruct (put_right_total c1 (f_k s) AJ) as (c2 & P2 & Q2); [lia|congruence|congruence|].
      rewrite P2. cbn [obind]. destruct (shape_fields _ _ Q2) as (V1 & V2 & V3 & V4).
      destruct (mvec_total (c_mat c) (d_ha d)) as (Ah & X7 & X8); [congruence|]. rewrite X7. cbn [obind].
      destruct (vsub_total (c_vec c) Ah) as (b & X9 & X10); [congruence|]. rewrite X9. cbn [obind].
      destruct (set_vec_total c2 b) as (c3 & P3 & Q3 & Q4); [congruence|congruence|].
      exists c3. split; [exact P3|]. split; [congruence|exact Q4].
    - assert (kd = CIneq) by (destruct Hk as [->| ->]; [discriminate|reflexivity]). subst kd.
      destruct (crows_ineq c r Eck T2) as (R1 & R2 & R3).
      destruct (mmul_total (c_mat c) (d_Ma d)) as (AM & X1 & X2 & X3); [congruence|]. rewrite X1. cbn [obind].
      destruct (put_cols_total k 0 (f_nv s) AM) as (c1 & P1 & Q1); [lia|lia|congruence|].
      rewrite P1. cbn [obind]. destruct (shape_fields _ _ Q1) as (U1 & U2 & U3 & U4).
      destruct (mmul_total (mopp (c_mat c)) (mtr (d_Ja d))) as (AJ & X4 & X5 & X6); [simpl; congruence|]. rewrite X4. cbn [obind].
      simpl in X5, X6.
      destruct (put_right_total c1 (f_k s) AJ) as (c2 & P2 & Q2); [lia|congruence|congruence|].
      rewrite P2. cbn [obind]. destruct (shape_fields _ _ Q2) as (V1 & V2 & V3 & V4).
      destruct (mvec_total (c_mat c) (d_ha d)) as (Ah & X7 & X8); [congruence|]. rewrite X7. cbn [obind].
      destruct (vsub_total (c_lb c) Ah) as (l & X9 & X10); [congruence|]. rewrite X9. cbn [obind].
      destruct (vsub_total (c_ub c) Ah) as (u & Y1 & Y2); [congruence|].
      destruct (set_bounds_total c2 l u) as (c3 & P3 & c4 & P4 & Q3 & Q4); [congruence|congruence|congruence|].
      rewrite P3. cbn [obind]. rewrite Y1. cbn [obind].
      exists c4. split; [exact P4|]. split; [congruence|exact Q4].
    - assert (kd = CIneq) by (destruct Hk as [->| ->]; [discriminate|reflexivity]). subst kd.
      destruct (crows_bound c r Eck T2) as (R2 & R3).
      destruct (put_cols_total k 0 (f_nv s) (d_Ma d)) as (c1 & P1 & Q1); [lia|lia|congruence|].
      rewrite P1. cbn [obind]. destruct (shape_fields _ _ Q1) as (U1 & U2 & U3 & U4).
      destruct (put_right_total c1 (f_k s) (mopp (mtr (d_Ja d)))) as (c2 & P2 & Q2); [lia|simpl; congruence|simpl; congruence|].
      rewrite P2. cbn [obind]. destruct (shape_fields _ _ Q2) as (V1 & V2 & V3 & V4).
      destruct (vsub_total (c_lb c) (d_ha d)) as (l & X9 & X10); [congruence|]. rewrite X9. cbn [obind].
      destruct (vsub_total (c_ub c) (d_ha d)) as (u & Y1 & Y2); [congruence|].
      destruct (set_bounds_total c2 l u) as (c3 & P3 & c4 & P4 & Q3 & Q4); [congruence|congruence|congruence|].
      rewrite P3. cbn [obind]. rewrite Y1. cbn [obind].
      exists c4. split; [exact P4|]. split; [congruence|exact Q4]. }
  rewrite E1. cbn [obind]. eexists; split; [reflexivity|].
  apply filled_heap; auto. congruence.
Qed.

Lemma hfext_total s e : (forall m, In m (f_meas s) -> vlen (e_meas e (fst m)) = f_nv s) ->
  exists v, comp_hfext s e = Some v /\ vlen v = f_nv s.
Proof.
  intros H. unfold comp_hfext.
  assert (G : forall (l : list (nat * string)) acc, (forall m, In m l -> vlen (e_meas e (fst m)) = f_nv s) -> vlen acc = f_nv s ->
    exists v, ofold (fun acc m => vadd acc (e_meas e (fst m))) l acc = Some v /\ vlen v = f_nv s).
  { clear H. induction l as [|m l IH]; intros acc H Ha; simpl; [eauto|].
    destruct (vadd_total acc (e_meas e (fst m))) as (v & E & L).
    { rewrite Ha. symmetry. apply H. left; reflexivity. }
    rewrite E. apply IH; [|congruence]. intros; apply H; right; assumption. }
  apply G; auto.
Qed.

Lemma filled_refl s : Forall sized (f_heap s) -> filled s s.
Proof. intros H. split; [apply same_refl|]. split; [exact H|]. apply fs_ext; reflexivity. Qed.

(** Field changes that keep the invariants. *)
Lemma invA_dyn s m v : invA s -> invA (w_dyn s m v).
Proof. intros []; constructor; auto. Qed.
Lemma invA_hfext s v : invA s -> invA (w_hfext s v).
Proof. intros []; constructor; auto. Qed.
Lemma invB_dyn s m v : invB s -> invB (w_dyn s m v).
Proof. intros H. apply (invB_sameB s); [repeat split|exact H]. Qed.
Lemma invB_hfext s v : invB s -> invB (w_hfext s v).
Proof. intros H. apply (invB_sameB s); [repeat split|exact H]. Qed.

Lemma comp_fill_total s e : invA s -> invB s -> invS s -> env_ok s e ->
  exists s', comp_fill s e = Some s' /\ invS s'.
Proof.
  intros HA HB HS (E1 & E2 & E3 & E4 & E5 & E6 & E7 & E8).
  unfold comp_fill. cbv zeta. set (s0 := w_dyn s (e_mass e) (e_nle e)).
  assert (A0 : invA s0) by (apply invA_dyn; exact HA).
  assert (B0 : invB s0) by (apply invB_dyn; exact HB).
  destruct (ofold_total (fun s cl => comp_contact s e cl) (filled s0) (f_contacts s0)) with (s := s0) as (s1 & F1 & G1).
  { intros cl s1 Hc HF. apply comp_contact_total; auto. }
  { apply filled_refl. apply (is_cells _ HS). }
  rewrite F1. cbn [obind].
  assert (G1' := G1). destruct G1' as (Sm1 & Sz1 & Eq1).
  assert (A1 : invA s1) by (eapply invA_same; eauto).
  assert (B1 : invB s1) by (eapply invB_same; eauto).
  destruct (hfext_total s1 e) as (hf & F2 & L2).
  { intros m Hm. rewrite Eq1 in Hm |- *. apply E5. exact Hm. }
  rewrite F2. cbn [obind].
  set (s2 := w_hfext s1 hf).
  assert (A2 : invA s2) by (apply invA_hfext; exact A1).
  assert (B2 : invB s2) by (apply invB_hfext; exact B1).
  assert (N2 : f_nv s2 = f_nv s) by (unfold s2; rewrite Eq1; reflexivity).
  assert (U2 : f_nu s2 = f_nu s) by (unfold s2; rewrite Eq1; reflexivity).
  destruct (dyn_total s2 A2) as (d & F3 & D3).
  { rewrite N2, U2. apply (is_nu _ HS). }
  { rewrite N2. unfold s2. rewrite Eq1. exact E1. }
  { rewrite N2. unfold s2. rewrite Eq1. exact E2. }
  { rewrite N2. unfold s2. rewrite Eq1. exact E3. }
  { rewrite N2. unfold s2; simpl. rewrite L2. rewrite Eq1. reflexivity. }
  rewrite F3. cbn [obind].
  destruct (comp_base_total s2 s2 d A2 B2 (filled_refl s2 Sz1) D3) as (s3 & F4 & G4).
  rewrite F4. cbn [obind].
  assert (An : forall t kd r, announced s2 t kd r -> announced s t kd r).
  { intros t kd r (c & Hc & Kc & Rc). assert (Hs : nth_error (shapes s1) (tl_cstr t) = Some (shape c)).
    { unfold shapes. rewrite nth_error_map. change (f_heap s1) with (f_heap s2). rewrite Hc. reflexivity. }
    rewrite (sm_sh _ _ Sm1) in Hs. change (shapes s0) with (shapes s) in Hs. apply nth_shape in Hs.
    destruct Hs as (c' & Hc' & Sc'). exists c'. unfold shape in Sc'. injection Sc'; intros. repeat split; congruence. }
  assert (M3 : f_motions s3 = f_motions s2 /\ f_forces s3 = f_forces s2 /\ f_acts s3 = f_acts s2).
  { destruct G4 as (_ & _ & ->). auto. }
  destruct M3 as (M3 & M3' & M3'').
  assert (M2 : f_motions s2 = f_motions s /\ f_forces s2 = f_forces s /\ f_acts s2 = f_acts s).
  { unfold s2. rewrite Eq1. auto. }
  destruct M2 as (M2 & M2' & M2'').
  destruct (ofold_total (comp_motion e) (filled s2) (f_motions s3)) with (s := s3) as (s4 & F5 & G5); auto.
  { intros t sx Ht HF. apply comp_motion_total; auto; [congruence|].
    intros kd r Ha. rewrite N2. apply E6; [congruence|auto]. }
  rewrite F5. cbn [obind].
  assert (M4 : f_forces s4 = f_forces s2 /\ f_acts s4 = f_acts s2) by (destruct G5 as (_ & _ & ->); auto).
  destruct M4 as (M4' & M4'').
  destruct (ofold_total (comp_force e) (filled s2) (f_forces s4)) with (s := s4) as (s5 & F6 & G6); auto.
  { intros t sx Ht HF. apply comp_force_total; auto; [congruence|].
    intros kd r Ha.
    assert (Fz : force_size s2 (e_assoc e (tl_task t)) = force_size s (e_assoc e (tl_task t))).
    { unfold force_size. f_equal. apply force_slot_eq; unfold s2; rewrite Eq1; reflexivity. }
    rewrite Fz. apply E7; [congruence|auto]. }
  rewrite F6. cbn [obind].
  assert (M5 : f_acts s5 = f_acts s2) by (destruct G6 as (_ & _ & ->); auto).
  destruct (ofold_total (comp_act e d) (filled s2) (f_acts s5)) with (s := s5) as (s6 & F7 & G7); auto.
  { intros t sx Ht HF. apply comp_act_total; auto; [congruence|].
    intros kd r Ha. rewrite N2, U2. apply E8; [congruence|auto]. }
  rewrite F7. cbn [obind]. eexists; split; [reflexivity|].
  destruct G7 as (_ & Sz7 & Eq7).
  constructor; cbn [f_heap w_dec f_mass f_nv f_nle f_hfext f_nu].
  - exact Sz7.
  - rewrite Eq7. cbn. unfold s2. rewrite Eq1. cbn. auto.
  - rewrite Eq7. cbn. unfold s2. rewrite Eq1. cbn. auto.
  - rewrite Eq7. cbn. rewrite L2. unfold s2. rewrite Eq1. reflexivity.
  - rewrite Eq7. cbn. unfold s2. rewrite Eq1. apply (is_nu _ HS).
Qed.

End Safe.
