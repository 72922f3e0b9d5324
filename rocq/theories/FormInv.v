(** Structural invariant of the formulation, for every call history: dimensions of
    all constraints and tiling of the contact force slots. *)
From Coq Require Import String List Arith Bool ZArith Lia Permutation.
From Verif Require Import Scalar Outcome Linalg Constraint Formulation ListUtil FormSpec.
Import ListNotations.
Open Scope string_scope.
Open Scope list_scope.
Open Scope nat_scope.

Lemma obind_some {A B} (x : option A) (f : A -> option B) b :
  obind x f = Some b -> exists a, x = Some a /\ f a = Some b.
Proof. destruct x; simpl; intros; [eauto|discriminate]. Qed.

(** Decompose a hypothesis [obind .. = Some ..]. *)
Ltac ob H :=
  let a := fresh "a" in let E := fresh "E" in
  apply obind_some in H; destruct H as (a & E & H).
Ltac obs := repeat match goal with
  | H : obind _ _ = Some _ |- _ => ob H
  | H : Some _ = Some _ |- _ => injection H as H; subst
  | H : None = Some _ |- _ => discriminate H
  end.

Section Inv.
Context {K : num}.
Variable dbg : bool.
Local Notation fstate := (fstate K).
Local Notation step := (step dbg).
Implicit Types (s : fstate) (h : list (constr K)) (w : K).

Global Arguments push_level : simpl never.
Global Arguments resize_hqp : simpl never.
Global Arguments nVar : simpl never.
Global Arguments new_eq : simpl never.
Global Arguments new_ineq : simpl never.

Definition oshape (x : cobj K) := (co_name x, co_nforce x, co_mrows x, co_frows x, co_rrows x).
Definition shapes (s : fstate) := map shape (f_heap s).

(** Everything except numeric contents. *)
Definition struct (s : fstate) :=
  (f_nv s, f_nu s, f_k s, f_eq s, f_in s, shapes s, f_hqp s, f_base s,
   f_contacts s, f_motions s, f_forces s, f_acts s, map oshape (f_objs s),
   (mrows (f_Jc s), mcols (f_Jc s))).

Ltac unst H := unfold struct in H; injection H as; repeat match goal with
  | H : pair _ _ = pair _ _ |- _ => injection H as H end.

(** Projections of [struct] equality. *)
Record same (s s' : fstate) : Prop := mkSame {
  sm_nv : f_nv s' = f_nv s; sm_nu : f_nu s' = f_nu s; sm_k : f_k s' = f_k s;
  sm_eq : f_eq s' = f_eq s; sm_in : f_in s' = f_in s;
  sm_sh : shapes s' = shapes s; sm_hqp : f_hqp s' = f_hqp s; sm_base : f_base s' = f_base s;
  sm_con : f_contacts s' = f_contacts s; sm_mot : f_motions s' = f_motions s;
  sm_for : f_forces s' = f_forces s; sm_act : f_acts s' = f_acts s;
  sm_obj : map oshape (f_objs s') = map oshape (f_objs s);
  sm_jr : mrows (f_Jc s') = mrows (f_Jc s); sm_jc : mcols (f_Jc s') = mcols (f_Jc s) }.

Lemma same_refl s : same s s.
Proof. constructor; reflexivity. Qed.
Lemma same_trans a b c : same a b -> same b c -> same a c.
Proof. intros [] []; constructor; congruence. Qed.

(** ** Shapes and object shapes determine the observers used below *)
Lemma nth_shape s a sh :
  nth_error (shapes s) a = Some sh <->
  exists c, nth_error (f_heap s) a = Some c /\ shape c = sh.
Proof.
  unfold shapes. rewrite nth_error_map. destruct (nth_error (f_heap s) a) as [c|]; simpl.
  - split; intros H.
    + injection H as H; eauto.
    + destruct H as (c' & E & <-). congruence.
  - split; [discriminate|]. intros (c & E & _); discriminate.
Qed.

Lemma name_at_shape (h h' : list (constr K)) a :
  map shape h' = map shape h -> name_at h' a = name_at h a.
Proof.
  intros E. unfold name_at.
  assert (H := f_equal (fun l => nth_error l a) E). simpl in H.
  rewrite !nth_error_map in H.
  destruct (nth_error h' a), (nth_error h a); simpl in H; try discriminate; auto.
  injection H; auto.
Qed.

Definition onf (l : list (cobj K)) (o : nat) : nat :=
  match nth_error l o with Some x => co_nforce x | None => 0 end.
Lemma cl_nforce_shape s s' c :
  map oshape (f_objs s') = map oshape (f_objs s) -> cl_nforce s' c = cl_nforce s c.
Proof.
  intros E. unfold cl_nforce, cobj_at.
  assert (H := f_equal (fun l => nth_error l (cl_obj c)) E). simpl in H.
  rewrite !nth_error_map in H.
  destruct (nth_error (f_objs s') (cl_obj c)), (nth_error (f_objs s) (cl_obj c));
    simpl in H; try discriminate; auto. injection H; auto.
Qed.
Lemma cl_name_shape s s' c :
  map oshape (f_objs s') = map oshape (f_objs s) -> cl_name s' c = cl_name s c.
Proof.
  intros E. unfold cl_name, cobj_at.
  assert (H := f_equal (fun l => nth_error l (cl_obj c)) E). simpl in H.
  rewrite !nth_error_map in H.
  destruct (nth_error (f_objs s') (cl_obj c)), (nth_error (f_objs s) (cl_obj c));
    simpl in H; try discriminate; auto. injection H; auto.
Qed.

Lemma slots_same s s' : same s s' -> slots s' = slots s.
Proof.
  intros H. unfold slots. rewrite (sm_con _ _ H). apply map_ext. intros c.
  rewrite (cl_nforce_shape s s') by apply (sm_obj _ _ H). reflexivity.
Qed.
Lemma contact_names_same s s' : same s s' -> contact_names s' = contact_names s.
Proof.
  intros H. unfold contact_names. rewrite (sm_con _ _ H). apply map_ext. intros c.
  rewrite (cl_name_shape s s') by apply (sm_obj _ _ H). reflexivity.
Qed.
Lemma hqp_names_same s s' : same s s' -> hqp_names s' = hqp_names s.
Proof.
  intros H. unfold hqp_names. rewrite (sm_hqp _ _ H). apply map_ext. intros c.
  apply name_at_shape, (sm_sh _ _ H).
Qed.

(** ** Invariant *)
Record invA (s : fstate) : Prop := mkInvA {
  ia_base : exists c, nth_error (shapes s) (f_base s) = Some ("base-dynamics", CEq, f_nu s, c) /\
                      c = nVar s;
  ia_kind : Forall (fun sh : string * ckind * nat * nat => snd (fst (fst sh)) <> CBound) (shapes s);
  ia_cols : Forall (fun e => exists nm kd r, nth_error (shapes s) (snd e) = Some (nm, kd, r, nVar s))
                   (concat (f_hqp s));
  ia_tile : tiles 0 (slots s) (f_k s);
  ia_objs : Forall (fun c => cl_obj c < List.length (f_objs s)) (f_contacts s);
  ia_lev : 2 <= List.length (f_hqp s);
  ia_jr : mrows (f_Jc s) = f_k s;
  ia_jc : mcols (f_Jc s) = f_nv s }.

Lemma objs_len s s' : map oshape (f_objs s') = map oshape (f_objs s) ->
  List.length (f_objs s') = List.length (f_objs s).
Proof. intros H. apply (f_equal (@List.length _)) in H. rewrite !map_length in H. exact H. Qed.

Lemma invA_same s s' : same s s' -> invA s -> invA s'.
Proof.
  intros H [Hb Hk Hc Ht Ho Hl Hr Hj].
  assert (Hv : nVar s' = nVar s) by (unfold nVar; rewrite (sm_nv _ _ H), (sm_k _ _ H); reflexivity).
  constructor.
  - rewrite Hv, (sm_sh _ _ H), (sm_base _ _ H), (sm_nu _ _ H). exact Hb.
  - rewrite (sm_sh _ _ H); exact Hk.
  - rewrite Hv, (sm_sh _ _ H), (sm_hqp _ _ H). exact Hc.
  - rewrite (slots_same _ _ H), (sm_k _ _ H). exact Ht.
  - rewrite (sm_con _ _ H), (objs_len s s') by apply (sm_obj _ _ H). exact Ho.
  - rewrite (sm_hqp _ _ H); exact Hl.
  - rewrite (sm_jr _ _ H), (sm_k _ _ H); exact Hr.
  - rewrite (sm_jc _ _ H), (sm_nv _ _ H); exact Hj.
Qed.

(** ** Operations that only write numeric contents *)
Lemma shape_lupd (h : list (constr K)) a c c' :
  nth_error h a = Some c -> shape c' = shape c -> map shape (lupd h a c') = map shape h.
Proof.
  intros H E. rewrite map_lupd, E. apply lupd_same. rewrite nth_error_map, H. reflexivity.
Qed.

Definition keeps (f : constr K -> option (constr K)) :=
  forall c c', f c = Some c' -> shape c' = shape c.

Lemma on_heap_shape h a f h' : keeps f -> on_heap h a f = Some h' -> map shape h' = map shape h.
Proof.
  intros Hf H. unfold on_heap in H. obs. eapply shape_lupd; [eassumption|].
  apply Hf; assumption.
Qed.

Lemma keeps_bind f g : keeps f -> keeps g -> keeps (fun c => do c <- f c; g c).
Proof. intros Hf Hg c c' H. ob H. rewrite (Hg _ _ H). apply Hf; assumption. Qed.
Lemma keeps_ext f g : (forall c, f c = g c) -> keeps f -> keeps g.
Proof. intros E H c c' Hc. apply H. rewrite E; exact Hc. Qed.
Lemma keeps_put_cols j n m : keeps (put_cols j n m).
Proof.
  intros c c' H. unfold put_cols in H. obs. unfold mset_cols in E.
  destruct (_ && _); [|discriminate]. injection E as <-. reflexivity.
Qed.
Lemma keeps_put_right n m : keeps (put_right n m).
Proof.
  intros c c' H. unfold put_right in H. obs. unfold mset_right, mset_cols in E.
  destruct (_ <=? _); [|discriminate]. destruct (_ && _); [|discriminate].
  injection E as <-. reflexivity.
Qed.
Lemma keeps_vec v : keeps (fun c => cset_vec c v).
Proof.
  intros c c' H. unfold cset_vec in H. unfold shape.
  destruct (c_kind c) eqn:E; try discriminate. injection H as <-. reflexivity.
Qed.
Lemma keeps_lb v : keeps (fun c => cset_lb c v).
Proof.
  intros c c' H. unfold cset_lb in H. unfold shape.
  destruct (c_kind c) eqn:E; try discriminate; injection H as <-; reflexivity.
Qed.
Lemma keeps_ub v : keeps (fun c => cset_ub c v).
Proof.
  intros c c' H. unfold cset_ub in H. unfold shape.
  destruct (c_kind c) eqn:E; try discriminate; injection H as <-; reflexivity.
Qed.

(** Solve [keeps f] for bodies built from the writers above. *)
Ltac keep := intros ?c ?c' ?H;
  repeat match goal with
  | H : (match ?k with CEq => _ | CIneq => _ | CBound => _ end) = Some _ |- _ => destruct k
  | H : obind _ _ = Some _ |- _ => ob H
  | H : put_cols _ _ _ _ = Some _ |- _ => apply keeps_put_cols in H
  | H : put_right _ _ _ = Some _ |- _ => apply keeps_put_right in H
  | H : cset_vec _ _ = Some _ |- _ => apply keeps_vec in H
  | H : cset_lb _ _ = Some _ |- _ => apply keeps_lb in H
  | H : cset_ub _ _ = Some _ |- _ => apply keeps_ub in H
  end; congruence.

Lemma same_heap s h : map shape h = shapes s -> same s (w_heap s h).
Proof. intros E. constructor; simpl; try reflexivity. exact E. Qed.

Lemma comp_contact_same s e cl s' : comp_contact s e cl = Some s' -> same s s'.
Proof.
  unfold comp_contact. intros H. ob H.
  destruct (e_cmotion e (cl_obj cl)) as [A b].
  ob H. ob H. ob H. destruct (e_cforce _ _ _ _) as [[B lb] ub]. ob H.
  destruct (e_creg e _) as [C d]. ob H. injection H as <-.
  apply on_heap_shape in E0; [|keep].
  apply on_heap_shape in E3; [|keep].
  apply on_heap_shape in E4; [|keep].
  assert (same s (w_heap s a4)) by (apply same_heap; unfold shapes; congruence).
  unfold mset_rows in E2. destruct (_ && _); [|discriminate]. injection E2 as <-.
  destruct H. constructor; simpl in *; auto.
Qed.

Lemma ofold_same {B} (f : fstate -> B -> option fstate) l s s' :
  (forall s b s', f s b = Some s' -> same s s') -> ofold f l s = Some s' -> same s s'.
Proof.
  intros Hf. revert s; induction l as [|b l IH]; simpl; intros s H.
  - injection H as <-. apply same_refl.
  - destruct (f s b) as [s1|] eqn:E; [|discriminate].
    eapply same_trans; eauto.
Qed.

Lemma comp_base_same s d s' : comp_base s d = Some s' -> same s s'.
Proof.
  unfold comp_base. intros H. obs.
  apply on_heap_shape in E; [|keep]. apply same_heap; exact E.
Qed.
Lemma comp_motion_same e s t s' : comp_motion e s t = Some s' -> same s s'.
Proof.
  unfold comp_motion. intros H. obs.
  apply on_heap_shape in E; [|keep]. apply same_heap; exact E.
Qed.
Lemma comp_force_same e s t s' : comp_force e s t = Some s' -> same s s'.
Proof.
  unfold comp_force. intros H. destruct (force_slot _ _) as [i n]. obs.
  apply on_heap_shape in E; [|keep]. apply same_heap; exact E.
Qed.
Lemma comp_act_same e d s t s' : comp_act e d s t = Some s' -> same s s'.
Proof.
  unfold comp_act. intros H. obs.
  apply on_heap_shape in E; [|keep]. apply same_heap; exact E.
Qed.

Lemma comp_fill_same s e s' : comp_fill s e = Some s' -> same s s'.
Proof.
  unfold comp_fill. intros H.
  repeat (ob H). injection H as <-.
  assert (S0 : same s (w_dyn s (e_mass e) (e_nle e))) by (constructor; reflexivity).
  assert (S1 := ofold_same _ _ _ _ (fun s b s' => comp_contact_same s e b s') E).
  assert (S2 : same a (w_hfext a a0)) by (constructor; reflexivity).
  assert (S3 := comp_base_same _ _ _ E2).
  assert (S4 := ofold_same _ _ _ _ (comp_motion_same e) E3).
  assert (S5 := ofold_same _ _ _ _ (comp_force_same e) E4).
  assert (S6 := ofold_same _ _ _ _ (comp_act_same e _) E5).
  assert (S7 : same a5 (w_dec a5 false)) by (constructor; reflexivity).
  eauto 10 using same_trans.
Qed.

Lemma oshape_upd (l : list (cobj K)) o x x' :
  nth_error l o = Some x -> oshape x' = oshape x -> map oshape (lupd l o x') = map oshape l.
Proof.
  intros H E. rewrite map_lupd, E. apply lupd_same. rewrite nth_error_map, H. reflexivity.
Qed.
Lemma set_fmax_same s o f s' b : obj_set_fmax s o f = Ret s' b -> same s s'.
Proof.
  unfold obj_set_fmax, cobj_at. destruct (nth_error (f_objs s) o) as [x|] eqn:E; [|discriminate].
  destruct (_ || _); [|discriminate]. intros H; injection H as <- _.
  constructor; simpl; try reflexivity. eapply oshape_upd; [exact E|reflexivity].
Qed.
Lemma set_fmin_same s o f s' b : obj_set_fmin s o f = Ret s' b -> same s s'.
Proof.
  unfold obj_set_fmin, cobj_at. destruct (nth_error (f_objs s) o) as [x|] eqn:E; [|discriminate].
  destruct (_ || _); [|discriminate]. intros H; injection H as <- _.
  constructor; simpl; try reflexivity. eapply oshape_upd; [exact E|reflexivity].
Qed.

Lemma decode_same s x s' : decode s x = Some s' -> same s s'.
Proof.
  unfold decode. destruct (f_dec s); intros H.
  - injection H as <-; apply same_refl.
  - repeat (ob H). injection H as <-. constructor; reflexivity.
Qed.

(** ** Weights *)
Definition addrs (ls : list (list (K * nat))) : list (list nat) := map (map snd) ls.

Lemma upd_weight_level_addrs h n w l l' :
  upd_weight_level (K:=K) h n w l = Some l' -> map snd l' = map snd l.
Proof.
  revert l'; induction l as [|e l IH]; simpl; intros l' H; [discriminate|].
  destruct (String.eqb _ _).
  - injection H as <-; reflexivity.
  - destruct (upd_weight_level h n w l); [|discriminate]. injection H as <-.
    simpl. f_equal. apply IH; reflexivity.
Qed.
Lemma upd_weight_levels_addrs h n w l l' :
  upd_weight_levels (K:=K) h n w l = Some l' -> addrs l' = addrs l.
Proof.
  revert l'; induction l as [|e l IH]; simpl; intros l' H; [discriminate|].
  destruct (upd_weight_level h n w e) as [e'|] eqn:E.
  - injection H as <-; simpl. f_equal. eapply upd_weight_level_addrs; eauto.
  - destruct (upd_weight_levels h n w l); [|discriminate]. injection H as <-.
    simpl. f_equal. apply IH; reflexivity.
Qed.
Lemma upd_cw_level_addrs h n wf wm l ff mf :
  map snd (fst (upd_cw_level (K:=K) h n wf wm l ff mf)) = map snd l.
Proof.
  revert ff mf; induction l as [|e l IH]; intros ff mf; simpl; [reflexivity|].
  destruct (String.eqb _ _).
  - destruct (mf || _).
    + simpl. destruct (_ <=? wf)%num; reflexivity.
    + specialize (IH true mf). destruct (upd_cw_level h n wf wm l true mf).
      simpl in *. rewrite IH. destruct (_ <=? wf)%num; reflexivity.
  - destruct (String.eqb _ _).
    + destruct ff.
      * simpl. destruct (_ <=? wm)%num; reflexivity.
      * specialize (IH false true). destruct (upd_cw_level h n wf wm l false true).
        simpl in *. rewrite IH. destruct (_ <=? wm)%num; reflexivity.
    + specialize (IH ff mf). destruct (upd_cw_level h n wf wm l ff mf).
      simpl in *. rewrite IH. reflexivity.
Qed.
Lemma upd_cw_levels_addrs h n wf wm ls ff mf :
  addrs (fst (upd_cw_levels (K:=K) h n wf wm ls ff mf)) = addrs ls.
Proof.
  revert ff mf; induction ls as [|l ls IH]; intros ff mf; simpl; [reflexivity|].
  assert (H := upd_cw_level_addrs h n wf wm l ff mf).
  destruct (upd_cw_level h n wf wm l ff mf) as [l' [[ff' mf']|[]]]; simpl in *.
  - specialize (IH ff' mf'). destruct (upd_cw_levels h n wf wm ls ff' mf'); simpl in *.
    rewrite H, IH; reflexivity.
  - rewrite H; reflexivity.
Qed.

Lemma concat_addrs ls : map snd (concat ls) = concat (addrs ls).
Proof. unfold addrs. rewrite concat_map. reflexivity. Qed.

Lemma Forall_addrs (P : nat -> Prop) (l : list (K * nat)) :
  Forall (fun e => P (snd e)) l <-> Forall P (map snd l).
Proof. rewrite Forall_map. reflexivity. Qed.

Lemma invA_reweight s ls : addrs ls = addrs (f_hqp s) -> invA s -> invA (w_hqp s ls).
Proof.
  intros E [Hb Hk Hc Ht Ho Hl Hr Hj]. constructor; auto; simpl.
  - change (nVar (w_hqp s ls)) with (nVar s). change (shapes (w_hqp s ls)) with (shapes s).
    set (P := fun a => exists nm kd r, nth_error (shapes s) a = Some (nm, kd, r, nVar s)).
    apply (Forall_addrs P) in Hc. apply (Forall_addrs P).
    rewrite concat_addrs in *. rewrite E. exact Hc.
  - apply (f_equal (@List.length _)) in E. unfold addrs in E. rewrite !map_length in E. lia.
Qed.

(** ** Levels *)
Lemma push_level_spec {A} (l : list (list A)) lvl e l' :
  push_level l lvl e = Some l' ->
  exists x, nth_error l lvl = Some x /\ l' = lupd l lvl (x ++ [e]).
Proof. unfold push_level. intros H. obs. eauto. Qed.

Lemma push_level_perm {A} (l : list (list A)) lvl e l' :
  push_level l lvl e = Some l' -> Permutation (concat l') (e :: concat l) /\ List.length l' = List.length l.
Proof.
  intros H. apply push_level_spec in H. destruct H as (x & H & ->). split.
  - apply concat_push; exact H.
  - apply lupd_length.
Qed.

Lemma grow_concat {A} (l : list (list A)) n : concat (grow l n) = concat l.
Proof. unfold grow. apply concat_grow_nil. Qed.
Lemma grow_length {A} (l : list (list A)) n : List.length l <= List.length (grow l n).
Proof. unfold grow. rewrite app_length. lia. Qed.

Lemma erase_level_spec h n l l' :
  erase_level (K:=K) h n l = Some l' ->
  exists l1 e l2, l = l1 ++ e :: l2 /\ l' = l1 ++ l2 /\ name_at h (snd e) = n /\
                  Forall (fun e => name_at h (snd e) <> n) l1.
Proof.
  revert l'; induction l as [|a l IH]; simpl; intros l' H; [discriminate|].
  destruct (String.eqb (name_at h (snd a)) n) eqn:E.
  - injection H as <-. apply String.eqb_eq in E. exists [], a, l; auto.
  - destruct (erase_level h n l) as [r|]; [|discriminate]. injection H as <-.
    destruct (IH _ eq_refl) as (l1 & e & l2 & -> & -> & Hn & Hl).
    exists (a :: l1), e, l2; repeat split; auto. constructor; auto.
    apply String.eqb_neq in E; exact E.
Qed.
Lemma erase_level_none h n l :
  erase_level (K:=K) h n l = None -> Forall (fun e => name_at h (snd e) <> n) l.
Proof.
  induction l as [|a l IH]; simpl; intros H; [constructor|].
  destruct (String.eqb (name_at h (snd a)) n) eqn:E; [discriminate|].
  destruct (erase_level h n l); [discriminate|].
  constructor; auto. apply String.eqb_neq in E; exact E.
Qed.
Lemma erase_levels_spec h n ls ls' :
  erase_levels (K:=K) h n ls = Some ls' ->
  exists i l1 e l2, nth_error ls i = Some (l1 ++ e :: l2) /\ ls' = lupd ls i (l1 ++ l2) /\
                    name_at h (snd e) = n.
Proof.
  revert ls'; induction ls as [|l ls IH]; simpl; intros ls' H; [discriminate|].
  destruct (erase_level h n l) as [l'|] eqn:E.
  - injection H as <-. apply erase_level_spec in E.
    destruct E as (l1 & e & l2 & -> & -> & Hn & _). exists 0, l1, e, l2; auto.
  - destruct (erase_levels h n ls) as [r|]; [|discriminate]. injection H as <-.
    destruct (IH _ eq_refl) as (i & l1 & e & l2 & Hi & -> & Hn).
    exists (S i), l1, e, l2; auto.
Qed.
Lemma erase_levels_none h n ls :
  erase_levels (K:=K) h n ls = None -> Forall (fun e => name_at h (snd e) <> n) (concat ls).
Proof.
  induction ls as [|l ls IH]; simpl; intros H; [constructor|].
  destruct (erase_level h n l) eqn:E; [discriminate|].
  destruct (erase_levels h n ls); [discriminate|].
  apply Forall_app; split; [apply erase_level_none; exact E | auto].
Qed.

Lemma invA_erase s n : invA s -> invA (fst (erase_hqp s n)).
Proof.
  intros H. unfold erase_hqp.
  destruct (erase_levels (f_heap s) n (f_hqp s)) as [ls|] eqn:E; [|exact H].
  apply erase_levels_spec in E. destruct E as (i & l1 & e & l2 & Hi & -> & _).
  destruct H as [Hb Hk Hc Ht Ho Hl Hr Hj]. constructor; auto; simpl.
  - assert (P := concat_drop _ _ _ _ _ Hi).
    rewrite P in Hc. inversion Hc; assumption.
  - rewrite lupd_length; exact Hl.
Qed.

(** ** Tiling *)
Lemma tiles_sum a l b : tiles a l b -> b = a + sum_nat (map snd l).
Proof.
  revert a; induction l as [|[o n] l IH]; simpl; intros a H; [lia|].
  destruct H as [_ H]. apply IH in H. lia.
Qed.
Lemma tiles_app a l1 l2 b m : tiles a l1 m -> tiles m l2 b -> tiles a (l1 ++ l2) b.
Proof.
  revert a; induction l1 as [|[o n] l1 IH]; simpl; intros a H1 H2; [subst; exact H2|].
  destruct H1 as [-> H1]. split; auto.
Qed.
Lemma reindex_tiles (s : fstate) k l :
  tiles k (map (fun c => (cl_index c, cl_nforce s c)) (reindex s k l))
        (k + sum_nat (map (cl_nforce s) l)).
Proof.
  revert k; induction l as [|c l IH]; intros k; simpl; [lia|].
  split; [reflexivity|]. 
  replace (k + (cl_nforce s c + sum_nat (map (cl_nforce s) l)))
    with ((k + cl_nforce s c) + sum_nat (map (cl_nforce s) l)) by lia.
  apply IH.
Qed.
Lemma reindex_id (s : fstate) k l m :
  tiles k (map (fun c => (cl_index c, cl_nforce s c)) l) m -> reindex s k l = l.
Proof.
  revert k; induction l as [|c l IH]; intros k; simpl; [reflexivity|].
  intros [E H]. rewrite IH by exact H. subst k. destruct c; reflexivity.
Qed.
Lemma reindex_shape {B} (f : clevel -> B) (s : fstate) k l :
  (forall o i m g r i', f (mkCl o i m g r) = f (mkCl o i' m g r)) ->
  map f (reindex s k l) = map f l.
Proof.
  intros Hf. revert k; induction l as [|c l IH]; intros k; simpl; [reflexivity|].
  rewrite IH. destruct c; simpl. f_equal. apply Hf.
Qed.

Lemma take_contact_spec (s : fstate) n l c r :
  take_contact s n l = Some (c, r) ->
  exists l1 l2, l = l1 ++ c :: l2 /\ r = l1 ++ l2 /\ cl_name s c = n /\
                Forall (fun c => cl_name s c <> n) l1.
Proof.
  revert r; induction l as [|a l IH]; simpl; intros r H; [discriminate|].
  destruct (String.eqb (cl_name s a) n) eqn:E.
  - injection H as <- <-. apply String.eqb_eq in E. exists [], l; auto.
  - destruct (take_contact s n l) as [[x r']|]; [|discriminate]. injection H as <- <-.
    destruct (IH _ eq_refl) as (l1 & l2 & -> & -> & Hn & Hl).
    exists (a :: l1), l2; repeat split; auto. constructor; auto.
    apply String.eqb_neq in E; exact E.
Qed.
Lemma take_contact_none (s : fstate) n l :
  take_contact s n l = None -> Forall (fun c => cl_name s c <> n) l.
Proof.
  induction l as [|a l IH]; simpl; intros H; [constructor|].
  destruct (String.eqb (cl_name s a) n) eqn:E; [discriminate|].
  destruct (take_contact s n l) as [[? ?]|]; [discriminate|].
  constructor; auto. apply String.eqb_neq in E; exact E.
Qed.
Lemma take_task_spec n l c r :
  take_task n l = Some (c, r) ->
  exists l1 l2, l = l1 ++ c :: l2 /\ r = l1 ++ l2 /\ tl_name c = n /\
                Forall (fun c => tl_name c <> n) l1.
Proof.
  revert r; induction l as [|a l IH]; simpl; intros r H; [discriminate|].
  destruct (String.eqb (tl_name a) n) eqn:E.
  - injection H as <- <-. apply String.eqb_eq in E. exists [], l; auto.
  - destruct (take_task n l) as [[x r']|]; [|discriminate]. injection H as <- <-.
    destruct (IH _ eq_refl) as (l1 & l2 & -> & -> & Hn & Hl).
    exists (a :: l1), l2; repeat split; auto. constructor; auto.
    apply String.eqb_neq in E; exact E.
Qed.
Lemma take_task_none n l :
  take_task n l = None -> Forall (fun c => tl_name c <> n) l.
Proof.
  induction l as [|a l IH]; simpl; intros H; [constructor|].
  destruct (String.eqb (tl_name a) n) eqn:E; [discriminate|].
  destruct (take_task n l) as [[? ?]|]; [discriminate|].
  constructor; auto. apply String.eqb_neq in E; exact E.
Qed.

(** ** Resizing *)
Definition set_cols (n : nat) (sh : string * ckind * nat * nat) := (fst sh, n).

Lemma resize_at_spec n h a h' c :
  nth_error h a = Some c -> c_kind c <> CBound ->
  resize_at (K:=K) n h a = Some h' ->
  map shape h' = lupd (map shape h) a (set_cols n (shape c)).
Proof.
  unfold resize_at. intros Hc Hk H. ob H. rewrite Hc in E. injection E as <-. obs.
  rewrite map_lupd. f_equal. unfold set_cols, shape; simpl.
  unfold crows in E. unfold cresize in E0.
  destruct (c_kind c) eqn:Ek; [| |contradiction].
  - destruct (_ =? _) eqn:Er in E; [|discriminate]. injection E as <-. injection E0 as <-. reflexivity.
  - destruct (_ && _) in E; [|discriminate]. injection E as <-. injection E0 as <-. reflexivity.
Qed.

(** Cells at the listed addresses get [n] columns, the others are unchanged. *)
Definition resized (n : nat) (l : list nat) (sh sh' : list (string * ckind * nat * nat)) : Prop :=
  List.length sh' = List.length sh /\
  (forall a x, nth_error sh a = Some x -> In a l -> nth_error sh' a = Some (set_cols n x)) /\
  (forall a, ~ In a l -> nth_error sh' a = nth_error sh a).

Lemma resize_fold_spec n (l : list (K * nat)) (h h' : list (constr K)) :
  Forall (fun e => snd e < List.length h) l ->
  Forall (fun sh : string * ckind * nat * nat => snd (fst (fst sh)) <> CBound) (map shape h) ->
  ofold (fun h e => resize_at n h (snd e)) l h = Some h' ->
  resized n (map snd l) (map shape h) (map shape h').
Proof.
  revert h; induction l as [|e l IH]; simpl; intros h Hv Hk H.
  - injection H as <-. repeat split; auto. intros ? ? ? [].
  - inversion Hv as [|? ? He Hv']; subst.
    destruct (resize_at n h (snd e)) as [h1|] eqn:E; [|discriminate].
    destruct (nth_error h (snd e)) as [c|] eqn:Ec.
    2:{ apply nth_error_None in Ec. lia. }
    assert (Hkc : c_kind c <> CBound).
    { rewrite Forall_forall in Hk. apply (Hk (shape c)).
      apply in_map. eapply nth_error_In; exact Ec. }
    assert (E1 := resize_at_spec _ _ _ _ _ Ec Hkc E).
    assert (L1 : List.length h1 = List.length h).
    { apply (f_equal (@List.length _)) in E1. rewrite lupd_length, !map_length in E1. exact E1. }
    assert (Hk1 : Forall (fun sh : string * ckind * nat * nat => snd (fst (fst sh)) <> CBound)
                         (map shape h1)).
    { rewrite E1. apply Forall_forall. intros x Hx. apply In_nth_error in Hx.
      destruct Hx as [i Hi]. destruct (Nat.eq_dec (snd e) i) as [<-|Hne].
      - rewrite nth_error_lupd_eq in Hi by (rewrite map_length; lia). injection Hi as <-. exact Hkc.
      - rewrite nth_error_lupd_neq in Hi by exact Hne. rewrite Forall_forall in Hk.
        apply Hk. eapply nth_error_In; exact Hi. }
    assert (Hv1 : Forall (fun e => snd e < List.length h1) l) by (rewrite L1; exact Hv').
    destruct (IH h1 Hv1 Hk1 H) as (L & Hin & Hout). split; [|split].
    + rewrite L, !map_length; exact L1.
    + intros a x Hx Ha. destruct (Nat.eq_dec (snd e) a) as [<-|Hne].
      * rewrite nth_error_map, Ec in Hx. injection Hx as <-.
        destruct (in_dec Nat.eq_dec (snd e) (map snd l)) as [Hi|Hi].
        -- rewrite (Hin (snd e) (set_cols n (shape c))); auto.
           rewrite E1, nth_error_lupd_eq by (rewrite map_length; lia). reflexivity.
        -- rewrite Hout by exact Hi.
           rewrite E1, nth_error_lupd_eq by (rewrite map_length; lia). reflexivity.
      * destruct Ha as [Ha|Ha]; [contradiction|].
        apply Hin; [|exact Ha]. rewrite E1, nth_error_lupd_neq by exact Hne. exact Hx.
    + intros a Ha. rewrite Hout by (intros Hi; apply Ha; right; exact Hi).
      rewrite E1. apply nth_error_lupd_neq. intros Eq. apply Ha; left; exact Eq.
Qed.

(** What resizeHqpData needs and does. *)
Record preA (s : fstate) : Prop := mkPreA {
  pa_base : exists c, nth_error (shapes s) (f_base s) = Some ("base-dynamics", CEq, f_nu s, c);
  pa_kind : Forall (fun sh : string * ckind * nat * nat => snd (fst (fst sh)) <> CBound) (shapes s);
  pa_addr : Forall (fun e => snd e < List.length (f_heap s)) (concat (f_hqp s)) }.

Lemma resize_hqp_spec s s' :
  preA s -> resize_hqp s = Some s' ->
  resized (nVar s) (f_base s :: map snd (concat (f_hqp s))) (shapes s) (shapes s') /\
  s' = w_Jc (w_heap s (f_heap s')) (mzero (f_k s) (f_nv s)).
Proof.
  intros [ (cb & Hb) Hk Ha] H. unfold resize_hqp in H. ob H. ob H. ob H. injection H as <-.
  split; [|reflexivity]. unfold shapes in *; simpl.
  assert (Hlen : f_base s < List.length (f_heap s)).
  { rewrite <- (map_length shape). apply nth_error_Some; congruence. }
  rewrite nth_error_map, E in Hb. simpl in Hb. injection Hb as Hb1 Hb2 Hb3 Hb4.
  unfold cresize in E0. rewrite Hb2 in E0. injection E0 as <-.
  set (b' := mkConstr _ _ _ _ _ _) in E1.
  assert (Hb' : shape b' = set_cols (nVar s) (shape a)).
  { unfold b', shape, set_cols; simpl. rewrite Hb2, Hb3. reflexivity. }
  apply resize_fold_spec in E1.
  - destruct E1 as (L & Hin & Hout).
    assert (Lm : map shape (lupd (f_heap s) (f_base s) b') =
                 lupd (map shape (f_heap s)) (f_base s) (shape b')) by apply map_lupd.
    split; [|split].
    + rewrite L, Lm, lupd_length; reflexivity.
    + intros i x Hx Hi.
      destruct (Nat.eq_dec (f_base s) i) as [Eb|Hne].
      * subst i. assert (x = shape a) by (rewrite nth_error_map, E in Hx; simpl in Hx; congruence).
        subst x.
        assert (Hx' : nth_error (map shape (lupd (f_heap s) (f_base s) b')) (f_base s) = Some (shape b')).
        { rewrite Lm, nth_error_lupd_eq; [reflexivity|rewrite map_length; exact Hlen]. }
        destruct (in_dec Nat.eq_dec (f_base s) (map snd (concat (f_hqp s)))) as [Hi'|Hi'].
        -- rewrite (Hin _ _ Hx' Hi'), Hb'. reflexivity.
        -- rewrite Hout by exact Hi'. rewrite Hx', Hb'. reflexivity.
      * destruct Hi as [Hi|Hi]; [contradiction|]. apply Hin; [|exact Hi].
        rewrite Lm, nth_error_lupd_neq by exact Hne. exact Hx.
    + intros i Hi. rewrite Hout by (intros Hi'; apply Hi; right; exact Hi').
      rewrite Lm. apply nth_error_lupd_neq. intros Eq. apply Hi; left; exact Eq.
  - rewrite lupd_length; exact Ha.
  - rewrite map_lupd. apply Forall_forall. intros x Hx. apply In_nth_error in Hx.
    destruct Hx as [i Hi]. destruct (Nat.eq_dec (f_base s) i) as [<-|Hne].
    + rewrite nth_error_lupd_eq in Hi by (rewrite map_length; exact Hlen). injection Hi as <-.
      discriminate.
    + rewrite nth_error_lupd_neq in Hi by exact Hne. rewrite Forall_forall in Hk.
      apply Hk. eapply nth_error_In; exact Hi.
Qed.

Lemma invA_preA s : invA s -> preA s.
Proof.
  intros [ (c & Hb & _) Hk Hc _ _ _ _ _]. constructor; eauto.
  eapply Forall_impl; [|exact Hc]. intros e (nm & kd & r & E).
  unfold shapes in E. rewrite <- (map_length shape). apply nth_error_Some; congruence.
Qed.

(** Shape-level consequences of a resize. *)
Lemma resized_fields n l sh sh' a nm kd r c :
  resized n l sh sh' -> nth_error sh a = Some (nm, kd, r, c) ->
  exists c', nth_error sh' a = Some (nm, kd, r, c') /\ (In a l -> c' = n) /\ (~ In a l -> c' = c).
Proof.
  intros (_ & Hin & Hout) H. destruct (in_dec Nat.eq_dec a l) as [Hi|Hi].
  - exists n. rewrite (Hin _ _ H Hi). repeat split; auto. contradiction.
  - exists c. rewrite (Hout _ Hi). repeat split; auto. contradiction.
Qed.
Lemma resized_kind n l sh sh' :
  resized n l sh sh' ->
  Forall (fun sh : string * ckind * nat * nat => snd (fst (fst sh)) <> CBound) sh ->
  Forall (fun sh : string * ckind * nat * nat => snd (fst (fst sh)) <> CBound) sh'.
Proof.
  intros H Hk. assert (HR := H). destruct H as (L & Hin & Hout). rewrite Forall_forall in *.
  intros x Hx. apply In_nth_error in Hx. destruct Hx as [i Hi].
  assert (i < List.length sh) by (rewrite <- L; apply nth_error_Some; congruence).
  destruct (nth_error sh i) as [[[[nm kd] r] c]|] eqn:E; [|apply nth_error_None in E; lia].
  destruct (resized_fields _ _ _ _ _ _ _ _ _ HR E) as (c' & E' & _).
  assert (x = (nm, kd, r, c')) by congruence. subst x. simpl.
  apply (Hk (nm, kd, r, c)). eapply nth_error_In; exact E.
Qed.

(** ** Preservation, call by call *)
Lemma shapes_app s c : shapes (w_heap s (f_heap s ++ [c])) = shapes s ++ [shape c].
Proof. unfold shapes; simpl. rewrite map_app; reflexivity. Qed.

(** Pushing one freshly allocated constraint of the right width. *)
Lemma invA_push s c w lvl hq :
  invA s -> mcols (c_mat c) = nVar s -> c_kind c <> CBound ->
  push_level (f_hqp s) lvl (w, List.length (f_heap s)) = Some hq ->
  invA (w_hqp (w_heap s (f_heap s ++ [c])) hq).
Proof.
  intros H Hm Hkc Hp. apply push_level_perm in Hp. destruct Hp as [P L].
  destruct H as [ (cb & Hb & Eb) Hk Hc Ht Ho Hl Hr Hj].
  assert (Esh : shapes (w_hqp (w_heap s (f_heap s ++ [c])) hq) = shapes s ++ [shape c])
    by (unfold shapes; simpl; rewrite map_app; reflexivity).
  constructor; auto.
  - exists cb. split; [|exact Eb]. rewrite Esh. apply nth_error_app_old; exact Hb.
  - rewrite Esh. apply Forall_app; split; [exact Hk|]. constructor; [exact Hkc|constructor].
  - simpl. rewrite P. constructor.
    + exists (c_name c), (c_kind c), (mrows (c_mat c)). rewrite Esh. simpl.
      assert (E : List.length (f_heap s) = List.length (shapes s))
        by (unfold shapes; rewrite map_length; reflexivity).
      rewrite E, nth_error_app_new. unfold shape. rewrite Hm. reflexivity.
    + eapply Forall_impl; [|exact Hc]. intros e (nm & kd & r & E).
      exists nm, kd, r. rewrite Esh. apply nth_error_app_old; exact E.
  - simpl. rewrite L. exact Hl.
Qed.

Lemma invA_eq s z : invA s -> invA (w_eq s z).
Proof. intros []; constructor; auto. Qed.
Lemma invA_in s z : invA s -> invA (w_in s z).
Proof. intros []; constructor; auto. Qed.
Lemma invA_motions s z : invA s -> invA (w_motions s z).
Proof. intros []; constructor; auto. Qed.
Lemma invA_forces s z : invA s -> invA (w_forces s z).
Proof. intros []; constructor; auto. Qed.
Lemma invA_acts s z : invA s -> invA (w_acts s z).
Proof. intros []; constructor; auto. Qed.

Lemma new_task_cols n kd r c : mcols (c_mat (new_task_cstr (K:=K) n kd r c)) = c.
Proof. destruct kd; reflexivity. Qed.
Lemma new_task_kind n kd r c : c_kind (new_task_cstr (K:=K) n kd r c) <> CBound.
Proof. destruct kd; discriminate. Qed.
Lemma new_task_rows n kd r c : mrows (c_mat (new_task_cstr (K:=K) n kd r c)) = r.
Proof. destruct kd; reflexivity. Qed.
Lemma new_task_name n kd r c : c_name (new_task_cstr (K:=K) n kd r c) = n.
Proof. destruct kd; reflexivity. Qed.
Lemma new_task_is_eq n kd r c : is_eq (c_kind (new_task_cstr (K:=K) n kd r c)) = is_eq kd.
Proof. destruct kd; reflexivity. Qed.

Lemma invA_grow s n : invA s -> invA (w_hqp s (grow (f_hqp s) n)).
Proof.
  intros []; constructor; auto; simpl.
  - rewrite grow_concat; assumption.
  - assert (L := grow_length (f_hqp s) n). lia.
Qed.

(** Canonical description of add_task_cstr. *)
Lemma add_task_cstr_spec s n kd r w lvl s' a :
  add_task_cstr s n kd r w lvl = Some (s', a) ->
  exists hq0 hq x,
    (hq0 = f_hqp s \/ hq0 = grow (f_hqp s) lvl) /\
    nth_error hq0 lvl = Some x /\ hq = lupd hq0 lvl (x ++ [(w, a)]) /\
    push_level hq0 lvl (w, a) = Some hq /\
    a = List.length (f_heap s) /\
    s' = w_hqp (w_heap (if lvl =? 0 then
                  (if is_eq kd then w_eq s (f_eq s + Z.of_nat r)%Z else w_in s (f_in s + Z.of_nat r)%Z)
                else s) (f_heap s ++ [new_task_cstr n kd r (nVar s)])) hq.
Proof.
  unfold add_task_cstr. intros H. ob H. injection H as <- <-.
  assert (Hp := push_level_spec _ _ _ _ E). destruct Hp as (x & Hx & ->).
  eexists _, _, x. split; [|split;[exact Hx|split;[reflexivity|split;[exact E|split;[reflexivity|]]]]].
  - destruct (_ <? _); auto.
  - destruct kd; simpl; destruct (lvl =? 0); reflexivity.
Qed.

Lemma invA_add_task s n kd r w lvl s' a :
  invA s -> add_task_cstr s n kd r w lvl = Some (s', a) -> invA s'.
Proof.
  intros H Ha. apply add_task_cstr_spec in Ha.
  destruct Ha as (hq0 & hq & x & Hq & Hx & _ & Hp & -> & ->).
  set (s1 := if lvl =? 0 then _ else s).
  assert (H1 : invA (w_hqp s1 hq0)).
  { assert (invA s1) by (unfold s1; destruct (lvl =? 0); [destruct (is_eq kd)|];
      auto using invA_eq, invA_in).
    destruct Hq as [-> | ->].
    - assert (E : f_hqp s = f_hqp s1) by (unfold s1; destruct (lvl =? 0); [destruct (is_eq kd)|]; reflexivity).
      rewrite E. destruct H0; constructor; auto.
    - assert (E : f_hqp s = f_hqp s1) by (unfold s1; destruct (lvl =? 0); [destruct (is_eq kd)|]; reflexivity).
      rewrite E. apply invA_grow; assumption. }
  assert (Ev : nVar s = nVar (w_hqp s1 hq0)) by (unfold s1; destruct (lvl =? 0); [destruct (is_eq kd)|]; reflexivity).
  assert (Eh : f_heap s = f_heap (w_hqp s1 hq0)) by (unfold s1; destruct (lvl =? 0); [destruct (is_eq kd)|]; reflexivity).
  rewrite Ev.
  assert (R := invA_push (w_hqp s1 hq0) (new_task_cstr n kd r (nVar (w_hqp s1 hq0))) w lvl hq H1
                 (new_task_cols _ _ _ _) (new_task_kind _ _ _ _)).
  rewrite <- Eh in R. specialize (R Hp). exact R.
Qed.

Lemma nforce_objs s s' c : f_objs s' = f_objs s -> cl_nforce s' c = cl_nforce s c.
Proof. intros E; unfold cl_nforce, cobj_at; rewrite E; reflexivity. Qed.

Lemma len1 {A} (l : list A) x : List.length (l ++ [x]) = S (List.length l).
Proof. rewrite app_length; simpl; lia. Qed.

(** Canonical description of add_contact. *)
Lemma add_contact_spec s o wr wm lvl s' b :
  add_contact s o wr wm lvl = Ret s' b ->
  b = true /\ exists x s1 q1 q2 q3,
    nth_error (f_objs s) o = Some x /\
    resize_hqp (w_k s (f_k s + co_nforce x)) = Some s1 /\
    let n := nVar s1 in
    let l := List.length (f_heap s1) in
    push_level (f_hqp s1) lvl (wm, l) = Some q1 /\
    push_level q1 0 (n1, S l) = Some q2 /\
    push_level q2 1 (wr, S (S l)) = Some q3 /\
    s' = w_in (w_eq (w_contacts (w_hqp (w_heap s1
           (f_heap s1 ++ [new_eq (co_name x ++ "_motion_task")%string (co_mrows x) n]
                      ++ [new_ineq (co_name x ++ "_force_constraint")%string (co_frows x) n]
                      ++ [new_eq (co_name x ++ "_force_reg_task")%string (co_rrows x) n]))
           q3) (f_contacts s ++ [mkCl o (f_k s) l (S l) (S (S l))]))
           (if lvl =? 0 then (f_eq s + Z.of_nat (co_mrows x))%Z else f_eq s))
           (f_in s + Z.of_nat (co_frows x))%Z.
Proof.
  unfold add_contact. intros H.
  match type of H with match ?t with _ => _ end = _ => destruct t as [s2|] eqn:HH; [|discriminate] end.
  injection H as <- <-. split; [reflexivity|].
  obs. simpl in *.
  repeat rewrite len1 in E2. repeat rewrite len1 in E3.
  eexists a, a0, a1, a2, a3.
  split; [exact E|]. split; [exact E0|]. cbv zeta.
  split; [exact E1|]. split; [exact E2|]. split; [exact E3|].
  unfold resize_hqp in E0. obs. simpl in *.
  repeat rewrite len1. rewrite <- !app_assoc.
  destruct (lvl =? 0); reflexivity.
Qed.

Lemma invA_resize s : 
  preA s -> forall s', resize_hqp s = Some s' ->
  tiles 0 (slots s) (f_k s) \/ True ->
  Forall (fun c => cl_obj c < List.length (f_objs s)) (f_contacts s) -> 2 <= List.length (f_hqp s) ->
  tiles 0 (slots s) (f_k s) -> invA s'.
Proof.
  intros Hp s' Hr _ Ho Hl Ht.
  destruct (resize_hqp_spec _ _ Hp Hr) as [HR Es].
  destruct Hp as [ (cb & Hb) Hk Ha].
  assert (Ev : nVar s' = nVar s) by (rewrite Es; reflexivity).
  constructor.
  - exists (nVar s'). split; [|reflexivity].
    rewrite (f_equal f_base Es), (f_equal f_nu Es). simpl.
    destruct (resized_fields _ _ _ _ _ _ _ _ _ HR Hb) as (c' & E & E' & _).
    rewrite E, E' by (left; reflexivity). rewrite Ev; reflexivity.
  - eapply resized_kind; eauto.
  - rewrite (f_equal f_hqp Es); simpl. apply Forall_forall. intros e He.
    rewrite Forall_forall in Ha. specialize (Ha _ He).
    destruct (nth_error (shapes s) (snd e)) as [[[[nm kd] r] c]|] eqn:E.
    2:{ apply nth_error_None in E. unfold shapes in E. rewrite map_length in E. lia. }
    destruct (resized_fields _ _ _ _ _ _ _ _ _ HR E) as (c' & E1 & E2 & _).
    exists nm, kd, r. rewrite E1, E2, Ev; [reflexivity|]. right. apply in_map; exact He.
  - rewrite Es. exact Ht.
  - rewrite Es. exact Ho.
  - rewrite Es. exact Hl.
  - rewrite Es. reflexivity.
  - rewrite Es. reflexivity.
Qed.

(** Resizing when the force size and contact list have just been changed: the
    tiling is re-established afterwards. *)
Lemma invA_of_resize s s' l :
  preA s -> resize_hqp s = Some s' ->
  Forall (fun c => cl_obj c < List.length (f_objs s)) l -> 2 <= List.length (f_hqp s) ->
  tiles 0 (map (fun c => (cl_index c, cl_nforce s c)) l) (f_k s) -> invA (w_contacts s' l).
Proof.
  intros Hp Hr Ho Hl Ht.
  assert (Hr' : resize_hqp (w_contacts s l) = Some (w_contacts s' l)).
  { unfold resize_hqp in *. simpl.
    destruct (nth_error (f_heap s) (f_base s)); simpl in *; [|discriminate].
    destruct (cresize c (f_nu s) (f_nv s + f_k s)); simpl in *; [|discriminate].
    destruct (ofold _ _ _); simpl in *; [|discriminate]. injection Hr as <-. reflexivity. }
  eapply (invA_resize (w_contacts s l)); eauto.
  destruct Hp; constructor; auto.
Qed.

Lemma invA_add_contact s o wr wm lvl s' b :
  invA s -> add_contact s o wr wm lvl = Ret s' b -> invA s'.
Proof.
  intros H Ha. apply add_contact_spec in Ha.
  destruct Ha as (_ & x & s1 & h1 & h2 & h3 & Hx & Hr & H1 & H2 & H3 & ->).
  assert (Hp : preA (w_k s (f_k s + co_nforce x))).
  { destruct (invA_preA _ H). constructor; auto. }
  set (l := List.length (f_heap s1)) in *.
  assert (Es := proj2 (resize_hqp_spec _ _ Hp Hr)).
  assert (I1 : invA (w_contacts s1 (f_contacts s ++ [mkCl o (f_k s) l (S l) (S (S l))]))).
  { eapply invA_of_resize; [exact Hp|exact Hr| | |]; simpl.
    - apply Forall_app; split; [apply ia_objs; exact H|]. constructor; [|constructor]. simpl.
      apply nth_error_Some; congruence.
    - apply ia_lev; exact H.
    - rewrite map_app. simpl. eapply tiles_app with (m := f_k s).
      + apply (ia_tile _ H).
      + simpl. split; [reflexivity|]. unfold cl_nforce, cobj_at; simpl. rewrite Hx. reflexivity. }
  assert (I2 := invA_push _ (new_eq (co_name x ++ "_motion_task") (co_mrows x) (nVar s1)) wm lvl h1 I1
                 eq_refl ltac:(discriminate) H1).
  assert (L2 : forall c, List.length (f_heap s1 ++ [c]) = S l)
    by (intros; rewrite app_length; simpl; unfold l; lia).
  assert (I3 := invA_push _ (new_ineq (co_name x ++ "_force_constraint") (co_frows x) (nVar s1)) n1 0 h2 I2
                 eq_refl ltac:(discriminate)).
  simpl in I3. rewrite len1 in I3. specialize (I3 H2).
  assert (I4 := invA_push _ (new_eq (co_name x ++ "_force_reg_task") (co_rrows x) (nVar s1)) wr 1 h3 I3
                 eq_refl ltac:(discriminate)).
  simpl in I4. repeat rewrite len1 in I4.
  specialize (I4 H3).
  rewrite <- !app_assoc in I4.
  apply invA_in, invA_eq. destruct I4; constructor; auto.
Qed.

(** Canonical description of an immediate contact removal.  [s3] is the state
    after the three erasures. *)
Definition erase3 (s : fstate) (n : string) : fstate :=
  fst (erase_hqp (fst (erase_hqp (fst (erase_hqp s (n ++ "_motion_task")%string))
                                 (n ++ "_force_constraint")%string)) (n ++ "_force_reg_task")%string).

Lemma remove_contact_now_spec s n s' b :
  remove_contact_now dbg s n = Ret s' b ->
  let s3 := erase3 s n in
  let p0 := task_priority (f_heap s) (n ++ "_motion_task")%string (f_hqp s) in
  (take_contact s n (f_contacts s) = None /\ b = false /\
   s' = w_contacts s3 (reindex s3 0 (f_contacts s))) \/
  (exists c rest s4 mr fr, take_contact s n (f_contacts s) = Some (c, rest) /\
   (p0 = Some 0 -> exists mc, nth_error (f_heap s) (cl_motion c) = Some mc /\ crows mc = Some mr) /\
   (exists fc, nth_error (f_heap s) (cl_force c) = Some fc /\ crows fc = Some fr) /\
   let s3' := w_contacts (w_in (w_eq (w_k s3 (f_k s - cl_nforce s c))
                (match p0 with Some 0 => (f_eq s - Z.of_nat mr)%Z | _ => f_eq s end))
                (f_in s - Z.of_nat fr)%Z) rest in
   resize_hqp s3' = Some s4 /\
   s' = w_contacts s4 (reindex s4 0 rest)).
Proof.
  intros H. cbv zeta. unfold remove_contact_now in H.
  match type of H with match ?t with _ => _ end = _ => destruct t as [[s2 b2]|] eqn:E; [|discriminate] end.
  injection H as -> ->. ob E.
  unfold erase3.
  assert (Hf : forall x m, f_heap (fst (erase_hqp (K:=K) x m)) = f_heap x /\
                f_contacts (fst (erase_hqp x m)) = f_contacts x /\
                f_objs (fst (erase_hqp x m)) = f_objs x /\
                f_k (fst (erase_hqp x m)) = f_k x /\
                f_eq (fst (erase_hqp x m)) = f_eq x /\
                f_in (fst (erase_hqp x m)) = f_in x).
  { intros x m. unfold erase_hqp. destruct (erase_levels _ _ _); simpl; auto 10. }
  destruct (erase_hqp s (n ++ "_motion_task")) as [sa ba] eqn:Ea.
  assert (Fa := Hf s (n ++ "_motion_task")%string). rewrite Ea in Fa.
  simpl fst in *. ob E.
  destruct (erase_hqp sa (n ++ "_force_constraint")) as [sb bb] eqn:Eb.
  assert (Fb := Hf sa (n ++ "_force_constraint")%string). rewrite Eb in Fb.
  simpl fst in *. ob E.
  destruct (erase_hqp sb (n ++ "_force_reg_task")) as [sc bc] eqn:Ec.
  assert (Fc := Hf sb (n ++ "_force_reg_task")%string). rewrite Ec in Fc.
  simpl fst in *. ob E. ob E. destruct a3 as [sd bd]. injection E as E E'.
  destruct Fa as (Fa1 & Fa2 & Fa3 & Fa4 & Fa5 & Fa6).
  destruct Fb as (Fb1 & Fb2 & Fb3 & Fb4 & Fb5 & Fb6).
  destruct Fc as (Fc1 & Fc2 & Fc3 & Fc4 & Fc5 & Fc6).
  assert (Ho : f_objs sc = f_objs s) by congruence.
  assert (Ht : take_contact sc n (f_contacts sc) = take_contact s n (f_contacts s)).
  { replace (f_contacts sc) with (f_contacts s) by congruence.
    generalize (f_contacts s); intros l; induction l as [|c l IH]; simpl; [reflexivity|].
    unfold cl_name, cobj_at. rewrite Ho, IH. reflexivity. }
  rewrite Ht in E4.
  destruct (take_contact s n (f_contacts s)) as [[c rest]|].
  - right. ob E4. ob E4. ob E4. ob E4. injection E4 as -> <-.
    assert (HP : match task_priority (f_heap s) (n ++ "_motion_task") (f_hqp s) with
                 | Some p => a = Some p | None => a = None end).
    { destruct (task_priority _ _ _); [congruence|]. ob E0. congruence. }
    assert (Hn : cl_nforce sc c = cl_nforce s c) by (apply nforce_objs; exact Ho).
    simpl in *.
    exists c, rest, sd.
    destruct (task_priority (f_heap s) (n ++ "_motion_task") (f_hqp s)) as [[|p]|]; subst a; simpl in E5.
    + ob E5. ob E5. injection E5 as <-. exists a6, a5. simpl in *.
      split; [reflexivity|]. split.
      { intros _. exists a. split; [|assumption]. congruence. }
      split.
      { exists a4. split; [congruence|]. exact E7. }
      split.
      { rewrite <- E8. rewrite <- Hn. replace (f_k sc) with (f_k s) by congruence.
        replace (f_eq sc) with (f_eq s) by congruence.
        replace (f_in sc) with (f_in s) by congruence. reflexivity. }
      rewrite <- E. f_equal. f_equal.
      unfold resize_hqp in E8. repeat (ob E8). injection E8 as <-. reflexivity.
    + injection E5 as <-. exists 0, a5. simpl in *.
      split; [reflexivity|]. split; [discriminate|].
      split.
      { exists a4. split; [congruence|]. exact E7. }
      split.
      { rewrite <- E8. rewrite <- Hn. replace (f_k sc) with (f_k s) by congruence.
        replace (f_eq s) with (f_eq sc) by congruence.
        replace (f_in sc) with (f_in s) by congruence. reflexivity. }
      rewrite <- E. f_equal. f_equal.
      unfold resize_hqp in E8. repeat (ob E8). injection E8 as <-. reflexivity.
    + injection E5 as <-. exists 0, a5. simpl in *.
      split; [reflexivity|]. split; [discriminate|].
      split.
      { exists a4. split; [congruence|]. exact E7. }
      split.
      { rewrite <- E8. rewrite <- Hn. replace (f_k sc) with (f_k s) by congruence.
        replace (f_eq s) with (f_eq sc) by congruence.
        replace (f_in sc) with (f_in s) by congruence. reflexivity. }
      rewrite <- E. f_equal. f_equal.
      unfold resize_hqp in E8. repeat (ob E8). injection E8 as <-. reflexivity.
  - left. injection E4 as <- <-. split; [reflexivity|]. split; [rewrite <- E'; reflexivity|].
    rewrite <- E. f_equal. f_equal. congruence.
Qed.

Lemma cl_nforce_lt_objs s c :
  cl_nforce s c = onf (f_objs s) (cl_obj c).
Proof. reflexivity. Qed.

Lemma erase3_inv s n : invA s -> invA (erase3 s n).
Proof. intros H. unfold erase3. auto using invA_erase. Qed.

Lemma erase_frame s n :
  f_heap (fst (erase_hqp s n)) = f_heap s /\ f_contacts (fst (erase_hqp s n)) = f_contacts s /\
  f_objs (fst (erase_hqp s n)) = f_objs s /\ f_k (fst (erase_hqp s n)) = f_k s.
Proof. unfold erase_hqp. destruct (erase_levels _ _ _); simpl; auto. Qed.
Lemma erase3_frame s n :
  f_heap (erase3 s n) = f_heap s /\ f_contacts (erase3 s n) = f_contacts s /\
  f_objs (erase3 s n) = f_objs s /\ f_k (erase3 s n) = f_k s.
Proof.
  unfold erase3.
  set (s1 := fst (erase_hqp s _)). set (s2 := fst (erase_hqp s1 _)).
  destruct (erase_frame s2 (n ++ "_force_reg_task")) as (-> & -> & -> & ->).
  unfold s2.
  destruct (erase_frame s1 (n ++ "_force_constraint")) as (-> & -> & -> & ->).
  apply erase_frame.
Qed.

Lemma sum_nat_app l1 l2 : sum_nat (l1 ++ l2) = sum_nat l1 + sum_nat l2.
Proof. induction l1; simpl; lia. Qed.

Lemma invA_remove_contact_now s n s' b :
  invA s -> remove_contact_now dbg s n = Ret s' b -> invA s'.
Proof.
  intros H Hr. apply remove_contact_now_spec in Hr. cbv zeta in Hr.
  assert (H3 := erase3_inv s n H).
  destruct (erase3_frame s n) as (F1 & F2 & F3 & F4).
  destruct Hr as [ (Ht & -> & ->) | (c & rest & s4 & mr & fr & Ht & _ & _ & Hz & ->) ].
  - assert (T := ia_tile _ H3). unfold slots in T. rewrite F2 in T.
    rewrite (reindex_id _ _ _ _ T). rewrite <- F2.
    destruct H3; constructor; auto.
  - set (s3 := erase3 s n) in *.
    set (s3' := w_contacts _ rest) in Hz.
    apply take_contact_spec in Ht. destruct Ht as (l1 & l2 & Hl & -> & Hn & _).
    assert (P3 : preA s3') by (destruct (invA_preA _ H3); constructor; auto).
    assert (Hobj : Forall (fun c => cl_obj c < List.length (f_objs s3')) (f_contacts s)).
    { change (f_objs s3') with (f_objs s3). rewrite F3. apply (ia_objs _ H). }
    assert (Es := proj2 (resize_hqp_spec _ _ P3 Hz)).
    eapply invA_of_resize; [exact P3|exact Hz| | |].
    + rewrite Hl in Hobj. apply Forall_app in Hobj. destruct Hobj as [O1 O2].
      inversion O2 as [|? ? _ O2']; subst.
      apply Forall_forall. intros x Hx.
      assert (Hx' : In (cl_obj x) (map cl_obj (l1 ++ l2))).
      { rewrite <- (reindex_shape cl_obj s4 0 (l1 ++ l2)) by reflexivity. apply in_map; exact Hx. }
      apply in_map_iff in Hx'. destruct Hx' as (y & <- & Hy).
      apply in_app_or in Hy. rewrite Forall_forall in O1, O2'. destruct Hy; auto.
    + apply (ia_lev _ H3).
    + assert (En : forall x, cl_nforce s3' x = cl_nforce s4 x)
        by (intros x; rewrite Es; reflexivity).
      assert (En' : forall x, cl_nforce s4 x = cl_nforce s x).
      { intros x. rewrite <- En. change (cl_nforce s3' x) with (cl_nforce s3 x).
        apply nforce_objs; exact F3. }
      replace (map (fun x => (cl_index x, cl_nforce s3' x)) (reindex s4 0 (l1 ++ l2)))
        with (map (fun x => (cl_index x, cl_nforce s4 x)) (reindex s4 0 (l1 ++ l2)))
        by (apply map_ext; intros; rewrite En; reflexivity).
      assert (T := tiles_sum _ _ _ (ia_tile _ H)). unfold slots in T. rewrite Hl in T.
      rewrite map_map in T. simpl in T. rewrite map_app, sum_nat_app in T. simpl in T.
      assert (R := reindex_tiles s4 0 (l1 ++ l2)).
      replace (f_k s3') with (0 + sum_nat (map (cl_nforce s4) (l1 ++ l2))); [exact R|].
      simpl. rewrite map_app, sum_nat_app.
      rewrite !(map_ext _ _ En'). rewrite T.
      change (fun x => cl_nforce s x) with (cl_nforce s) in *. lia.
Qed.

Lemma run_transitions_inv (I : fstate -> Prop) :
  (forall s s', same s s' -> I s -> I s') ->
  (forall s l, I s -> I (w_trans s l)) ->
  (forall s n s' b, I s -> remove_contact_now dbg s n = Ret s' b -> I s') ->
  forall todo s dn o s', I s -> run_transitions dbg s dn todo = o -> after o = Some s' -> I s'.
Proof.
  intros Hsame Htr Hrem. induction todo as [|c todo IH]; simpl; intros s dn o s' H Hr Ha.
  - subst o. injection Ha as <-. exact H.
  - destruct (assert_ _ _); [|subst; discriminate].
    destruct (_ <=? _)%num.
    + destruct (obj_set_fmax s (tr_obj c) _) as [s1 b1|s1|] eqn:E; subst o.
      * eapply IH; [|reflexivity|exact Ha].
        eapply Hsame; [eapply set_fmax_same; exact E|exact H].
      * injection Ha as <-. unfold obj_set_fmax in E. destruct (cobj_at _ _); [|discriminate].
        destruct (_ || _); [discriminate|]. injection E as <-. exact H.
      * discriminate.
    + destruct (cobj_at s (tr_obj c)) as [x|]; [|subst; discriminate].
      destruct (remove_contact_now dbg s (co_name x)) as [s1 b1|s1|] eqn:E; subst o.
      * injection Ha as <-. apply Htr. eapply Hrem; eauto.
      * unfold remove_contact_now in E.
        match type of E with match ?t with _ => _ end = _ => destruct t as [[? ?]|]; discriminate end.
      * discriminate.
Qed.

Lemma invA_trans s l : invA s -> invA (w_trans s l).
Proof. intros []; constructor; auto. Qed.

Lemma lift_after {A} (f : A -> fout K) (o : outcome fstate A) : after (lift f o) = after o.
Proof. destruct o; reflexivity. Qed.

Lemma invA_step s o s' : invA s -> after (step s o) = Some s' -> invA s'.
Proof.
  intros H Ha. destruct o; simpl in Ha; try rewrite lift_after in Ha.
  - injection Ha as <-. destruct H as [Hb Hk Hc Ht Ho Hl Hr Hj]. constructor; auto; simpl.
    + assert (Es : slots (w_objs s (f_objs s ++ [c])) = slots s).
      { unfold slots; simpl. apply map_ext_in. intros x Hx. f_equal.
        rewrite !cl_nforce_lt_objs. simpl. unfold onf.
        rewrite Forall_forall in Ho. rewrite nth_error_app1 by (apply Ho; exact Hx). reflexivity. }
      rewrite Es; exact Ht.
    + eapply Forall_impl; [|exact Ho]. intros x Hx. simpl in *. rewrite app_length. lia.
  - destruct (obj_set_fmin s o f) as [s1 b1|s1|] eqn:E; [| |discriminate]; injection Ha as <-.
    + eapply invA_same; [eapply set_fmin_same; exact E|exact H].
    + unfold obj_set_fmin in E. destruct (cobj_at _ _); [|discriminate].
      destruct (_ || _); [discriminate|]. injection E as <-. exact H.
  - destruct (obj_set_fmax s o f) as [s1 b1|s1|] eqn:E; [| |discriminate]; injection Ha as <-.
    + eapply invA_same; [eapply set_fmax_same; exact E|exact H].
    + unfold obj_set_fmax in E. destruct (cobj_at _ _); [|discriminate].
      destruct (_ || _); [discriminate|]. injection E as <-. exact H.
  - unfold add_motion in Ha. destruct (args_ok w dur); [|injection Ha as <-; exact H].
    destruct (add_task_cstr s name kd rows w lvl) as [[s1 a]|] eqn:E; [|discriminate].
    injection Ha as <-. apply invA_motions. eapply invA_add_task; eauto.
  - unfold add_force in Ha. destruct (args_ok w dur); [|injection Ha as <-; exact H].
    destruct (add_task_cstr s name kd rows w lvl) as [[s1 a]|] eqn:E; [|discriminate].
    injection Ha as <-. apply invA_forces. eapply invA_add_task; eauto.
  - unfold add_act in Ha. destruct (args_ok w dur); [|injection Ha as <-; exact H].
    destruct (add_task_cstr s name kd rows w lvl) as [[s1 a]|] eqn:E; [|discriminate].
    injection Ha as <-. apply invA_acts. eapply invA_add_task; eauto.
  - unfold upd_task_weight in Ha. destruct (f_hqp s) as [|l0 ls] eqn:E.
    + injection Ha as <-. exact H.
    + destruct (upd_weight_levels _ _ _ _) as [ls'|] eqn:E'; injection Ha as <-; [|exact H].
      apply invA_reweight; [|exact H]. rewrite E. simpl. f_equal.
      eapply upd_weight_levels_addrs; exact E'.
  - destruct (add_contact s o wreg wmot lvl) as [s1 b1|s1|] eqn:E; [| |discriminate]; injection Ha as <-.
    + eapply invA_add_contact; eauto.
    + unfold add_contact in E.
      match type of E with match ?t with _ => _ end = _ => destruct t; discriminate end.
  - unfold upd_contact_weights in Ha. destruct (f_hqp s) as [|l0 ls] eqn:E.
    + injection Ha as <-. exact H.
    + assert (E' := upd_cw_levels_addrs (f_heap s) name wf wm ls false false).
      destruct (upd_cw_levels _ _ _ _ _ _ _) as [ls' b]; injection Ha as <-.
      apply invA_reweight; [|exact H]. rewrite E. simpl in *. f_equal. exact E'.
  - injection Ha as <-. destruct H; constructor; auto.
  - unfold remove_task in Ha.
    assert (H1 := invA_erase s name H).
    destruct (erase_hqp s name) as [s1 f1]. simpl in H1.
    destruct (assert_ dbg f1); [|discriminate].
    destruct (take_task name (f_motions s1)) as [[t r]|].
    + destruct (tl_prio t =? 0).
      * destruct (tl_rows s1 t) as [[[] m]|]; try discriminate; injection Ha as <-;
          auto using invA_motions, invA_eq, invA_in.
      * injection Ha as <-. auto using invA_motions.
    + destruct (take_task name (f_forces s1)) as [[t r]|].
      * injection Ha as <-. auto using invA_forces.
      * destruct (take_task name (f_acts s1)) as [[t r]|].
        -- destruct (tl_prio t =? 0).
           ++ destruct (tl_rows s1 t) as [[[] m]|]; try discriminate; injection Ha as <-;
                auto using invA_acts, invA_eq, invA_in.
           ++ injection Ha as <-. auto using invA_acts.
        -- injection Ha as <-. exact H1.
  - unfold remove_contact in Ha. destruct (_ <? _)%num.
    + destruct (find_contact s name); [|injection Ha as <-; exact H].
      destruct (cobj_at _ _); [|discriminate]. injection Ha as <-. apply invA_trans; exact H.
    + destruct (remove_contact_now dbg s name) as [s1 b1|s1|] eqn:E; [| |discriminate]; injection Ha as <-.
      * eapply invA_remove_contact_now; eauto.
      * unfold remove_contact_now in E.
        match type of E with match ?t with _ => _ end = _ => destruct t as [[? ?]|]; discriminate end.
  - unfold remove_meas in Ha. destruct (take_meas _ _); injection Ha as <-; [|exact H].
    destruct H; constructor; auto.
  - unfold compute in Ha.
    destruct (run_transitions dbg (w_t s t) [] (f_trans (w_t s t))) as [s1 u|s1|] eqn:E; [| |discriminate].
    + destruct (comp_fill s1 e) as [s2|] eqn:E2; [|discriminate]. injection Ha as <-.
      eapply invA_same; [eapply comp_fill_same; exact E2|].
      eapply (run_transitions_inv invA); [exact invA_same|exact invA_trans|exact invA_remove_contact_now| |exact E|reflexivity].
      destruct H; constructor; auto.
    + injection Ha as <-.
      eapply (run_transitions_inv invA); [exact invA_same|exact invA_trans|exact invA_remove_contact_now| |exact E|reflexivity].
      destruct H; constructor; auto.
  - unfold get in Ha. destruct (decode s x) as [s1|] eqn:E; [|discriminate].
    assert (H1 := invA_same _ _ (decode_same _ _ _ E) H).
    destruct g; try (injection Ha as <-; exact H1).
    destruct (find_contact s1 name); [|injection Ha as <-; exact H1].
    destruct (vsegment _ _ _); [|discriminate]. injection Ha as <-; exact H1.
Qed.

Lemma invA_init nv na M0 H0 : invA (init nv na M0 H0).
Proof.
  constructor; simpl; auto.
  - exists nv. split; [|unfold nVar; simpl; lia]. unfold new_eq, shape; simpl. reflexivity.
  - repeat constructor. discriminate.
  - repeat constructor. exists "base-dynamics", CEq, (nv - na).
    unfold new_eq, shape, nVar; simpl. rewrite Nat.add_0_r. reflexivity.
Qed.

Theorem invA_reach nv na M0 H0 P s : reach step P (init nv na M0 H0) s -> invA s.
Proof.
  intros H. eapply reach_inv; [| |exact H].
  - apply invA_init.
  - intros. eapply invA_step; eauto.
Qed.

Theorem invA_run nv na M0 H0 ops s : run step (init nv na M0 H0) ops = Some s -> invA s.
Proof. intros H. apply run_reach in H. eapply invA_reach; exact H. Qed.

End Inv.
