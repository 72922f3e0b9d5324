(** Removals preserve the ownership invariant; the counters nEq and nIn. *)
From Coq Require Import String List Arith Bool ZArith Lia Permutation.
From Verif Require Import Scalar Outcome Linalg Constraint Formulation ListUtil FormSpec FormInv FormInvB.
Import ListNotations.
Open Scope string_scope.
Open Scope list_scope.
Open Scope nat_scope.

Section InvC.
Context {K : num}.
Variable dbg : bool.
Local Notation fstate := (fstate K).
Local Notation step := (step dbg).
Implicit Types (s : fstate) (h : list (constr K)) (w : K).

Definition tflt (n : string) (l : list tlevel) := filter (fun t => negb (String.eqb (tl_name t) n)) l.

Lemma tflt_absent n l : ~ In n (map tl_name l) -> tflt n l = l.
Proof.
  intros H. apply filter_all. intros t Ht. apply negb_true_iff, String.eqb_neq.
  intros E. apply H. rewrite <- E. apply in_map; exact Ht.
Qed.
Lemma take_task_filter n l : NoDup (map tl_name l) ->
  match take_task n l with
  | Some (t, r) => r = tflt n l /\ In t l /\ tl_name t = n
  | None => tflt n l = l /\ ~ In n (map tl_name l)
  end.
Proof.
  intros N. destruct (take_task n l) as [[t r]|] eqn:E.
  - apply take_task_spec in E. destruct E as (l1 & l2 & -> & -> & En & F).
    rewrite map_app in N. simpl in N. split; [|split; auto].
    + unfold tflt. rewrite filter_app. simpl. rewrite En, String.eqb_refl. simpl.
      fold (tflt n l1). fold (tflt n l2). rewrite !tflt_absent; [reflexivity| |].
      * intros H. apply NoDup_remove_2 in N. apply N. rewrite En. apply in_or_app; auto.
      * intros H. apply NoDup_remove_2 in N. apply N. rewrite En. apply in_or_app; auto.
    + apply in_or_app; right; left; reflexivity.
  - apply take_task_none in E. split.
    + apply tflt_absent. intros H. apply in_map_iff in H. destruct H as (t & Et & Ht).
      rewrite Forall_forall in E. eapply E; eauto.
    + intros H. apply in_map_iff in H. destruct H as (t & Et & Ht).
      rewrite Forall_forall in E. eapply E; eauto.
Qed.

Lemma task_names s : invB s ->
  map (name_at (f_heap s)) (map tl_cstr (tasks s)) = map tl_name (tasks s).
Proof.
  intros HB. rewrite map_map. apply map_ext_in. intros t Ht.
  destruct (b_task _ HB t Ht) as ((kd & r & E) & _). eapply info_name; exact E.
Qed.
Lemma task_names_nodup s : invB s -> NoDup (map tl_name (tasks s)).
Proof.
  intros HB. assert (N := owners_nodup_names s HB). unfold owners in N. simpl in N.
  inversion N as [|? ? _ N']; subst. rewrite map_app in N'. apply NoDup_app_l in N'.
  rewrite task_names in N' by exact HB. exact N'.
Qed.

(** The priority recorded for a task is the level holding its name. *)
Definition level0 s : list (K * nat) := nth 0 (f_hqp s) [].

Lemma in_level0 s a : in_level s 0 a <-> In a (map snd (level0 s)).
Proof.
  unfold in_level, level0. destruct (f_hqp s) as [|l ls]; simpl.
  - split; [intros (l & H & _); discriminate|intros []].
  - split; [intros (l' & H & Ha); congruence|eauto].
Qed.

Lemma in_level_unique s i j a : invB s -> in_level s i a -> in_level s j a -> i = j.
Proof.
  intros HB (l & Hl & Ha) (l' & Hl' & Ha').
  assert (N : NoDup (concat (map (map snd) (f_hqp s)))).
  { rewrite <- concat_map. eapply Permutation_NoDup; [symmetry; apply (b_perm _ HB)|].
    apply owners_nodup; exact HB. }
  eapply (NoDup_concat_level (map (map snd) (f_hqp s)) i j (map snd l) (map snd l')); eauto.
  - rewrite nth_error_map, Hl. reflexivity.
  - rewrite nth_error_map, Hl'. reflexivity.
Qed.

(** ** Rows of the hard level *)
Definition rowsAt s (p : ckind -> bool) (a : nat) : nat :=
  match info s a with Some (_, kd, r) => if p kd then r else 0 | None => 0 end.

Lemma hard_rows_alt s p : level_rows p (nth 0 (hqp s) []) = sum_nat (map (fun e => rowsAt s p (snd e)) (level0 s)).
Proof.
  unfold hqp, level0. destruct (f_hqp s) as [|l ls]; [reflexivity|]. simpl.
  unfold level_rows. rewrite map_map. f_equal. apply map_ext. intros e.
  unfold rows_if, rowsAt, info, shapes, deref; simpl. rewrite nth_error_map.
  destruct (nth_error (f_heap s) (snd e)); reflexivity.
Qed.

Definition rows0 s p : nat := sum_nat (map (fun e => rowsAt s p (snd e)) (level0 s)).
Definition invC s : Prop :=
  f_eq s = Z.of_nat (rows0 s is_eq) /\ f_in s = Z.of_nat (rows0 s not_eq).

Lemma invC_spec s : invC s <-> nEq s = Z.of_nat (hard_eq_rows s) /\ nIn s = Z.of_nat (hard_in_rows s).
Proof. unfold invC, nEq, nIn, hard_eq_rows, hard_in_rows. rewrite !hard_rows_alt. reflexivity. Qed.

Lemma rowsAt_info s s' p a : info s' a = info s a -> rowsAt s' p a = rowsAt s p a.
Proof. intros E. unfold rowsAt. rewrite E. reflexivity. Qed.

Lemma rows0_ext s s' p :
  map snd (level0 s') = map snd (level0 s) ->
  (forall a, In a (map snd (level0 s)) -> info s' a = info s a) -> rows0 s' p = rows0 s p.
Proof.
  intros E Hi. unfold rows0. rewrite <- !(map_map snd (rowsAt _ p)). rewrite E. f_equal.
  apply map_ext_in. intros a Ha. apply rowsAt_info, Hi, Ha.
Qed.

Lemma info_old s c a : a < List.length (f_heap s) -> forall hq,
  info (w_hqp (w_heap s (f_heap s ++ [c])) hq) a = info s a.
Proof.
  intros H hq. unfold info, shapes; simpl. rewrite map_app, nth_error_app1; [reflexivity|].
  rewrite map_length; exact H.
Qed.

Lemma level0_valid s : valid s -> forall a, In a (map snd (level0 s)) -> a < List.length (f_heap s).
Proof.
  unfold valid, level0. intros H a Ha. destruct (f_hqp s) as [|l ls]; [contradiction|]. simpl in *.
  apply in_map_iff in Ha. destruct Ha as (e & <- & He). rewrite Forall_forall in H.
  apply H. apply in_or_app; auto.
Qed.

(** Pushing a constraint changes the hard rows iff the level is 0. *)
Lemma rows0_push s c w lvl hq p :
  push_level (f_hqp s) lvl (w, List.length (f_heap s)) = Some hq -> valid s ->
  rows0 (w_hqp (w_heap s (f_heap s ++ [c])) hq) p =
  rows0 s p + (if lvl =? 0 then (if p (c_kind c) then mrows (c_mat c) else 0) else 0).
Proof.
  intros Hp Hv. set (s1 := w_hqp _ hq).
  assert (PI := push_info s c hq). fold s1 in PI.
  assert (Hold : forall a, In a (map snd (level0 s)) -> info s1 a = info s a).
  { intros a Ha. apply info_old. apply level0_valid; assumption. }
  apply push_level_spec in Hp. destruct Hp as (x & Hx & E).
  destruct (f_hqp s) as [|l ls] eqn:Eq; [destruct lvl; discriminate|].
  assert (E0 : level0 s = l) by (unfold level0; rewrite Eq; reflexivity).
  destruct lvl as [|lvl]; simpl in *.
  - injection Hx as ->.
    assert (E1 : level0 s1 = x ++ [(w, List.length (f_heap s))]) by (unfold level0, s1; simpl; rewrite E; reflexivity).
    unfold rows0. rewrite E0, E1, map_app. simpl. rewrite sum_nat_app. simpl. rewrite Nat.add_0_r.
    f_equal.
    + f_equal. rewrite <- !(map_map snd (rowsAt _ p)). apply map_ext_in. intros a Ha.
      apply rowsAt_info, Hold. rewrite E0; exact Ha.
    + unfold rowsAt. rewrite PI. reflexivity.
  - assert (E1 : level0 s1 = l) by (unfold level0, s1; simpl; rewrite E; reflexivity).
    rewrite Nat.add_0_r. apply rows0_ext; [rewrite E0, E1; reflexivity|exact Hold].
Qed.

Lemma level0_drop s (p : K * nat -> bool) :
  level0 (w_hqp s (map (filter p) (f_hqp s))) = filter p (level0 s).
Proof. unfold level0; simpl. destruct (f_hqp s); reflexivity. Qed.

Lemma nm_nodup0 s : NoDup (hqp_names s) -> NoDup (map (nm s) (level0 s)).
Proof.
  unfold hqp_names, level0, nm. intros N. destruct (f_hqp s) as [|l ls]; [constructor|].
  simpl in *. rewrite map_app in N. apply NoDup_app_l in N. exact N.
Qed.

(** Dropping a name from the data. *)
Lemma rows0_drop s n p a :
  NoDup (hqp_names s) -> In a (map snd (concat (f_hqp s))) -> name_at (f_heap s) a = n ->
  rows0 (w_hqp s (drop n (f_heap s) (f_hqp s))) p +
    (if in_dec Nat.eq_dec a (map snd (level0 s)) then rowsAt s p a else 0) = rows0 s p.
Proof.
  intros N Ha Hn. unfold rows0. unfold drop. rewrite level0_drop.
  change (fun e => rowsAt (w_hqp s (map (filter _) (f_hqp s))) p (snd e)) with (fun e : K * nat => rowsAt s p (snd e)).
  assert (N0 := nm_nodup0 s N).
  destruct (in_dec Nat.eq_dec a (map snd (level0 s))) as [Hi|Hi].
  - apply in_map_iff in Hi. destruct Hi as (e & <- & He).
    apply (sum_drop (nm s) (fun e => rowsAt s p (snd e)) n (level0 s) e N0 He Hn).
  - rewrite Nat.add_0_r. do 2 f_equal. apply filter_all. intros e He.
    apply negb_true_iff, String.eqb_neq. intros En. apply Hi.
    assert (e_in : In e (concat (f_hqp s))).
    { unfold level0 in He. destruct (f_hqp s); [contradiction|]. simpl in *. apply in_or_app; auto. }
    apply in_map_iff in Ha. destruct Ha as (e' & Ea & He').
    assert (e = e').
    { apply (NoDup_map_inj (nm s) (concat (f_hqp s))); auto. unfold nm. rewrite Ea, Hn, En. reflexivity. }
    subst e'. rewrite <- Ea. apply in_map; exact He.
Qed.
Lemma drop_absent s n : ~ In n (hqp_names s) -> drop n (f_heap s) (f_hqp s) = f_hqp s.
Proof.
  intros H. unfold drop. rewrite <- (map_id (f_hqp s)) at 2. apply map_ext_in. intros l Hl.
  apply filter_all. intros e He. apply negb_true_iff, String.eqb_neq. intros E. apply H.
  unfold hqp_names. apply in_map_iff. exists e. split; auto. apply in_concat; eauto.
Qed.

(** ** removeTask *)
Definition task_row s (t : tlevel) (p : ckind -> bool) : nat :=
  if tl_prio t =? 0 then rowsAt s p (tl_cstr t) else 0.

Lemma remove_task_char s n s' b :
  invA s -> invB s -> remove_task dbg s n = Ret s' b ->
  exists eq' in',
    s' = w_in (w_eq (w_acts (w_forces (w_motions (w_hqp s (drop n (f_heap s) (f_hqp s)))
           (tflt n (f_motions s))) (tflt n (f_forces s))) (tflt n (f_acts s))) eq') in' /\
    (b = true <-> In n (map tl_name (tasks s))) /\
    (forall t, In t (f_motions s ++ f_acts s) -> tl_name t = n ->
       eq' = (f_eq s - Z.of_nat (task_row s t is_eq))%Z /\
       in' = (f_in s - Z.of_nat (task_row s t not_eq))%Z) /\
    (~ In n (map tl_name (f_motions s ++ f_acts s)) -> eq' = f_eq s /\ in' = f_in s).
Proof.
  intros HA HB Hr. unfold remove_task in Hr.
  assert (N := task_names_nodup s HB). unfold tasks in N. rewrite !map_app in N.
  assert (Nm := NoDup_app_l _ _ N). assert (Nfa := NoDup_app_r _ _ N).
  assert (Nf := NoDup_app_l _ _ Nfa). assert (Na := NoDup_app_r _ _ Nfa).
  assert (ED := erase_hqp_drop s n (b_names _ HB)).
  destruct (erase_hqp s n) as [s1 f1]. simpl in ED. subst s1.
  destruct (assert_ dbg f1); [|discriminate].
  simpl f_motions in Hr. simpl f_forces in Hr. simpl f_acts in Hr.
  assert (Hrow : forall t q, In t (tasks s) -> tl_rows (w_hqp s q) t <> None ->
    exists kd r, tl_rows (w_hqp s q) t = Some (kd, r) /\ kd <> CBound /\
      forall p, rowsAt s p (tl_cstr t) = if p kd then r else 0).
  { intros t q Ht Hnn. unfold tl_rows in *. simpl in *.
    destruct (nth_error (f_heap s) (tl_cstr t)) as [c|] eqn:Ec; [|contradiction Hnn; reflexivity].
    simpl in *. destruct (crows c) as [r|] eqn:Er; [|contradiction Hnn; reflexivity].
    simpl. exists (c_kind c), r. split; [reflexivity|].
    assert (Hk : c_kind c <> CBound).
    { assert (F := ia_kind _ HA). rewrite Forall_forall in F. apply (F (shape c)).
      unfold shapes. apply in_map. eapply nth_error_In; exact Ec. }
    split; [exact Hk|]. intros p. unfold rowsAt, info, shapes. rewrite nth_error_map, Ec. simpl.
    assert (mrows (c_mat c) = r).
    { unfold crows in Er. destruct (c_kind c); [| |contradiction];
        match type of Er with (if ?b then _ else _) = _ => destruct b; congruence end. }
    rewrite H. reflexivity. }
  assert (Tm := take_task_filter n (f_motions s) Nm).
  assert (Tf := take_task_filter n (f_forces s) Nf).
  assert (Ta := take_task_filter n (f_acts s) Na).
  assert (Huniq : forall t t', In t (tasks s) -> In t' (tasks s) -> tl_name t = n -> tl_name t' = n -> t = t').
  { intros t t' Ht Ht' E E'. eapply (NoDup_map_inj tl_name (tasks s)); eauto.
    - apply task_names_nodup; exact HB.
    - congruence. }
  destruct (take_task n (f_motions s)) as [[t r]|].
  - destruct Tm as (-> & Ht & En).
    assert (HtT : In t (tasks s)) by (unfold tasks; apply in_or_app; auto).
    assert (Hnf : ~ In n (map tl_name (f_forces s))).
    { intros H. eapply NoDup_app_inv; [exact N| |apply in_or_app; left; exact H].
      rewrite <- En. apply in_map; exact Ht. }
    assert (Hna : ~ In n (map tl_name (f_acts s))).
    { intros H. eapply NoDup_app_inv; [exact N| |apply in_or_app; right; exact H].
      rewrite <- En. apply in_map; exact Ht. }
    rewrite (tflt_absent n (f_forces s)) by exact Hnf.
    rewrite (tflt_absent n (f_acts s)) by exact Hna.
    assert (Hb : In n (map tl_name (tasks s))) by (rewrite <- En; apply in_map; exact HtT).
    destruct (tl_prio t =? 0) eqn:Ep.
    + destruct (tl_rows (w_hqp s (drop n (f_heap s) (f_hqp s))) t) as [[kd m]|] eqn:Et; [|discriminate].
      destruct (Hrow t _ HtT ltac:(rewrite Et; discriminate)) as (kd' & r' & E1 & Hk & Er).
      rewrite Et in E1. injection E1 as <- <-.
      destruct kd; [| |contradiction]; injection Hr as <- <-.
      * exists (f_eq s - Z.of_nat m)%Z, (f_in s). split; [reflexivity|].
        split; [tauto|]. split.
        -- intros t' Ht' En'. assert (t' = t).
           { apply Huniq; auto. apply in_app_or in Ht'. unfold tasks. destruct Ht'; apply in_or_app; auto.
             right; apply in_or_app; auto. }
           subst t'. unfold task_row. rewrite Ep, !Er. simpl. lia.
        -- intros H. exfalso. apply H. rewrite map_app. apply in_or_app; left.
           rewrite <- En. apply in_map; exact Ht.
      * exists (f_eq s), (f_in s - Z.of_nat m)%Z. split; [reflexivity|].
        split; [tauto|]. split.
        -- intros t' Ht' En'. assert (t' = t).
           { apply Huniq; auto. apply in_app_or in Ht'. unfold tasks. destruct Ht'; apply in_or_app; auto.
             right; apply in_or_app; auto. }
           subst t'. unfold task_row. rewrite Ep, !Er. simpl. lia.
        -- intros H. exfalso. apply H. rewrite map_app. apply in_or_app; left.
           rewrite <- En. apply in_map; exact Ht.
    + injection Hr as <- <-. exists (f_eq s), (f_in s). split; [reflexivity|].
      split; [tauto|]. split.
      * intros t' Ht' En'. assert (t' = t).
        { apply Huniq; auto. apply in_app_or in Ht'. unfold tasks. destruct Ht'; apply in_or_app; auto.
          right; apply in_or_app; auto. }
        subst t'. unfold task_row. rewrite Ep. simpl. lia.
      * auto.
  - destruct Tm as (Em & Hnm). rewrite Em.
    destruct (take_task n (f_forces s)) as [[t r]|].
    + destruct Tf as (-> & Ht & En).
      assert (HtT : In t (tasks s)) by (unfold tasks; apply in_or_app; right; apply in_or_app; auto).
      assert (Hna : ~ In n (map tl_name (f_acts s))).
      { intros H. eapply NoDup_app_inv; [exact Nfa| |exact H].
        rewrite <- En. apply in_map; exact Ht. }
      rewrite (tflt_absent n (f_acts s)) by exact Hna.
      injection Hr as <- <-. exists (f_eq s), (f_in s). split; [reflexivity|].
      split; [split; auto; intros _; rewrite <- En; apply in_map; exact HtT|]. split; [|auto].
      intros t' Ht' En'. exfalso. apply in_app_or in Ht'. destruct Ht' as [Ht'|Ht'].
      * apply Hnm. rewrite <- En'. apply in_map; exact Ht'.
      * apply Hna. rewrite <- En'. apply in_map; exact Ht'.
    + destruct Tf as (Ef & Hnf). rewrite Ef.
      destruct (take_task n (f_acts s)) as [[t r]|].
      * destruct Ta as (-> & Ht & En).
        assert (HtT : In t (tasks s)) by (unfold tasks; apply in_or_app; right; apply in_or_app; auto).
        assert (Hb : In n (map tl_name (tasks s))) by (rewrite <- En; apply in_map; exact HtT).
        destruct (tl_prio t =? 0) eqn:Ep.
        -- destruct (tl_rows (w_hqp s (drop n (f_heap s) (f_hqp s))) t) as [[kd m]|] eqn:Et; [|discriminate].
           destruct (Hrow t _ HtT ltac:(rewrite Et; discriminate)) as (kd' & r' & E1 & Hk & Er).
           rewrite Et in E1. injection E1 as <- <-.
           destruct kd; [| |contradiction]; injection Hr as <- <-.
           ++ exists (f_eq s - Z.of_nat m)%Z, (f_in s). split; [reflexivity|].
              split; [tauto|]. split.
              ** intros t' Ht' En'. assert (t' = t).
                 { apply Huniq; auto. apply in_app_or in Ht'. unfold tasks. destruct Ht'; apply in_or_app; auto.
                   right; apply in_or_app; auto. }
                 subst t'. unfold task_row. rewrite Ep, !Er. simpl. lia.
              ** intros H. exfalso. apply H. rewrite map_app. apply in_or_app; right.
                 rewrite <- En. apply in_map; exact Ht.
           ++ exists (f_eq s), (f_in s - Z.of_nat m)%Z. split; [reflexivity|].
              split; [tauto|]. split.
              ** intros t' Ht' En'. assert (t' = t).
                 { apply Huniq; auto. apply in_app_or in Ht'. unfold tasks. destruct Ht'; apply in_or_app; auto.
                   right; apply in_or_app; auto. }
                 subst t'. unfold task_row. rewrite Ep, !Er. simpl. lia.
              ** intros H. exfalso. apply H. rewrite map_app. apply in_or_app; right.
                 rewrite <- En. apply in_map; exact Ht.
        -- injection Hr as <- <-. exists (f_eq s), (f_in s). split; [reflexivity|].
           split; [tauto|]. split; [|auto].
           intros t' Ht' En'. assert (t' = t).
           { apply Huniq; auto. apply in_app_or in Ht'. unfold tasks. destruct Ht'; apply in_or_app; auto.
             right; apply in_or_app; auto. }
           subst t'. unfold task_row. rewrite Ep. simpl. lia.
      * destruct Ta as (Ea & Hna). rewrite Ea. injection Hr as <- <-.
        exists (f_eq s), (f_in s). split; [destruct s; reflexivity|]. split.
        -- split; [discriminate|]. intros H. unfold tasks in H. rewrite !map_app in H.
           apply in_app_or in H. destruct H as [H|H]; [contradiction|].
           apply in_app_or in H. destruct H; contradiction.
        -- split; [|auto]. intros t' Ht' En'. exfalso. apply in_app_or in Ht'. destruct Ht' as [Ht'|Ht'].
           ++ apply Hnm. rewrite <- En'. apply in_map; exact Ht'.
           ++ apply Hna. rewrite <- En'. apply in_map; exact Ht'.
Qed.

(** Dropping entries by a predicate on names. *)
Lemma in_level_filter s (p : string -> bool) i a :
  p (name_at (f_heap s) a) = true -> in_level s i a ->
  in_level (w_hqp s (map (filter (fun e => p (nm s e))) (f_hqp s))) i a.
Proof.
  intros Hp (l & Hl & Ha). unfold in_level; simpl. rewrite nth_error_map, Hl. simpl.
  eexists. split; [reflexivity|]. apply in_map_iff in Ha. destruct Ha as (e & <- & He).
  apply in_map. apply filter_In. split; auto.
Qed.
Lemma filter_perm s (p : string -> bool) :
  invB s ->
  Permutation (map snd (concat (map (filter (fun e => p (nm s e))) (f_hqp s))))
              (filter (fun a => p (name_at (f_heap s) a)) (owners s)).
Proof.
  intros HB. rewrite concat_map_filter. unfold nm.
  rewrite <- (filter_map snd (fun a => p (name_at (f_heap s) a))).
  apply Permutation_filter, (b_perm _ HB).
Qed.
Lemma filter_names s (p : string -> bool) : NoDup (hqp_names s) ->
  NoDup (hqp_names (w_hqp s (map (filter (fun e => p (nm s e))) (f_hqp s)))).
Proof.
  intros N. unfold hqp_names; simpl. rewrite concat_map_filter. apply NoDup_filter_map; exact N.
Qed.

Lemma invB_remove_task s n s' b :
  invA s -> invB s -> ~ reserved n -> remove_task dbg s n = Ret s' b -> invB s'.
Proof.
  intros HA HB Hres Hr. destruct (remove_task_char s n s' b HA HB Hr) as (eq' & in' & -> & _).
  set (p := fun m => negb (String.eqb m n)).
  assert (Etask : tasks (w_in (w_eq (w_acts (w_forces (w_motions (w_hqp s (drop n (f_heap s) (f_hqp s)))
           (tflt n (f_motions s))) (tflt n (f_forces s))) (tflt n (f_acts s))) eq') in') = tflt n (tasks s)).
  { unfold tasks, tflt; simpl. rewrite !filter_app. reflexivity. }
  set (s' := w_in _ in') in *.
  assert (M : mono (fun a => p (name_at (f_heap s) a) = true) s s').
  { repeat split; auto. intros i a Hp Hl.
    apply (in_level_filter s p i a Hp Hl). }
  constructor.
  - change (f_hqp s') with (map (filter (fun e => p (nm s e))) (f_hqp s)).
    rewrite (filter_perm s p HB). unfold owners. rewrite Etask. simpl.
    change (f_base s') with (f_base s). change (f_contacts s') with (f_contacts s).
    assert (Eb : name_at (f_heap s) (f_base s) = "base-dynamics").
    { destruct (ia_base _ HA) as (c & E & _).
      apply (info_name s (f_base s) _ CEq (f_nu s)). unfold info. rewrite E. reflexivity. }
    assert (Epb : p (name_at (f_heap s) (f_base s)) = true).
    { unfold p. rewrite Eb. apply negb_true_iff, String.eqb_neq. intros <-. apply Hres, res_base. }
    rewrite Epb. constructor. rewrite filter_app. apply Permutation_app.
    + rewrite filter_map. unfold tflt. erewrite filter_ext_in; [reflexivity|].
      intros t Ht. unfold p. destruct (b_task _ HB t Ht) as ((kd & r & E) & _).
      rewrite (info_name _ _ _ _ _ E). reflexivity.
    + rewrite filter_all; [reflexivity|]. intros a Ha.
      apply in_flat_map in Ha. destruct Ha as (c & Hc & Ha).
      destruct (b_con _ HB c Hc) as ([[[[m nf] mr] fr] rr] & (_ & Em & Ef & Er & _)).
      unfold p. apply negb_true_iff, String.eqb_neq. intros E. apply Hres. rewrite <- E.
      destruct Ha as [<-|[<-|[<-|[]]]].
      * rewrite (info_name _ _ _ _ _ Em). apply res_m.
      * rewrite (info_name _ _ _ _ _ Ef). apply res_f.
      * rewrite (info_name _ _ _ _ _ Er). apply res_r.
  - apply (filter_names s p (b_names _ HB)).
  - apply M; [|apply (b_base _ HB)]. change (p (name_at (f_heap s) (f_base s)) = true).
    destruct (ia_base _ HA) as (c & E & _).
    rewrite (info_name s (f_base s) "base-dynamics" CEq (f_nu s)) by (unfold info; rewrite E; reflexivity).
    unfold p. apply negb_true_iff, String.eqb_neq. intros <-. apply Hres, res_base.
  - rewrite Etask. intros t Ht. apply filter_In in Ht. destruct Ht as [Ht Hn].
    eapply task_ok_mono; [exact M| |apply (b_task _ HB); exact Ht].
    destruct (b_task _ HB t Ht) as ((kd & r & E) & _). rewrite (info_name _ _ _ _ _ E). exact Hn.
  - intros c Hc. destruct (b_con _ HB c Hc) as ([[[[m nf] mr] fr] rr] & Hok). exists (m, nf, mr, fr, rr).
    eapply con_ok_mono; [exact M| |exact Hok]. intros a Ha. destruct Hok as (_ & Em & Ef & Er & _).
    unfold p. apply negb_true_iff, String.eqb_neq. intros E. apply Hres. rewrite <- E.
    destruct Ha as [<-|[<-|[<-|[]]]].
    + rewrite (info_name _ _ _ _ _ Em). apply res_m.
    + rewrite (info_name _ _ _ _ _ Ef). apply res_f.
    + rewrite (info_name _ _ _ _ _ Er). apply res_r.
Qed.

Lemma invC_remove_task s n s' b :
  invA s -> invB s -> invC s -> ~ reserved n ->
  (forall t, In t (f_forces s) -> tl_name t = n -> tl_prio t <> 0) ->
  remove_task dbg s n = Ret s' b -> invC s'.
Proof.
  intros HA HB [HE HI] Hres Hfp Hr.
  destruct (remove_task_char s n s' b HA HB Hr) as (eq' & in' & Es & _ & Hin & Hout).
  assert (R : forall p, rows0 s' p = rows0 (w_hqp s (drop n (f_heap s) (f_hqp s))) p).
  { intros p. rewrite Es. reflexivity. }
  assert (Fe : f_eq s' = eq' /\ f_in s' = in') by (rewrite Es; auto). destruct Fe as [Fe Fi].
  unfold invC. rewrite Fe, Fi, !R. clear Fe Fi R Es s' Hr.
  destruct (in_dec string_dec n (map tl_name (tasks s))) as [Hn|Hn].
  - apply in_map_iff in Hn. destruct Hn as (t & En & Ht).
    destruct (b_task _ HB t Ht) as ((kd & r & Ei) & _ & Hl).
    assert (Ha : In (tl_cstr t) (map snd (concat (f_hqp s)))) by (eapply in_level_in; exact Hl).
    assert (Hna : name_at (f_heap s) (tl_cstr t) = n) by (rewrite (info_name _ _ _ _ _ Ei); exact En).
    assert (RD := fun p => rows0_drop s n p (tl_cstr t) (b_names _ HB) Ha Hna).
    assert (Hrow : forall p, (if in_dec Nat.eq_dec (tl_cstr t) (map snd (level0 s)) then rowsAt s p (tl_cstr t) else 0)
                     = task_row s t p).
    { intros p. unfold task_row. destruct (in_dec _ _ _) as [Hi|Hi].
      - apply in_level0 in Hi. assert (E0 := in_level_unique s _ _ _ HB Hl Hi). rewrite E0. reflexivity.
      - destruct (tl_prio t =? 0) eqn:E0; [|reflexivity]. apply Nat.eqb_eq in E0.
        exfalso. apply Hi. apply in_level0. rewrite <- E0. exact Hl. }
    assert (RE := RD is_eq). assert (RI := RD not_eq). rewrite Hrow in RE, RI.
    unfold tasks in Ht. apply in_app_or in Ht. destruct Ht as [Ht|Ht].
    + destruct (Hin t ltac:(apply in_or_app; auto) En) as [-> ->]. lia.
    + apply in_app_or in Ht. destruct Ht as [Ht|Ht].
      * assert (Hp := Hfp t Ht En). unfold task_row in RE, RI.
        apply Nat.eqb_neq in Hp. rewrite Hp in RE, RI.
        destruct Hout as [-> ->]; [|lia].
        intros H. apply in_map_iff in H. destruct H as (t' & En' & Ht').
        assert (N := task_names_nodup s HB). unfold tasks in N. rewrite !map_app in N.
        apply in_app_or in Ht'. destruct Ht' as [Ht'|Ht'].
        -- eapply NoDup_app_inv; [exact N| |]; [apply in_map; exact Ht'|].
           rewrite En', <- En. apply in_or_app; left. apply in_map; exact Ht.
        -- apply NoDup_app_r in N. eapply NoDup_app_inv; [exact N| |]; [apply in_map; exact Ht|].
           rewrite En, <- En'. apply in_map; exact Ht'.
      * destruct (Hin t ltac:(apply in_or_app; auto) En) as [-> ->]. lia.
  - destruct Hout as [-> ->].
    { intros H. apply Hn. unfold tasks. rewrite !map_app in *. apply in_app_or in H.
      apply in_or_app. destruct H; auto. right; apply in_or_app; auto. }
    assert (Habs : ~ In n (hqp_names s)).
    { intros H. rewrite hqp_names_addr in H. apply in_map_iff in H. destruct H as (a & Ea & Ha).
      rewrite (b_perm _ HB) in Ha.
      destruct (owner_name s a HA HB Ha) as [ (_ & E')|[ (t & Ht & _ & E' & _)|(c & m & ? & ? & ? & ? & _ & _ & _ & E')] ].
      - apply Hres. rewrite <- Ea, E'. apply res_base.
      - apply Hn. rewrite <- Ea, E'. apply in_map; exact Ht.
      - apply Hres. rewrite <- Ea. destruct E' as [ (_ & ->)|[ (_ & ->)|(_ & ->)] ].
        + apply res_m.
        + apply res_f.
        + apply res_r. }
    rewrite drop_absent by exact Habs. rewrite w_hqp_id. auto.
Qed.

(** ** Contact removal *)
Definition cflt s (n : string) (l : list clevel) := filter (fun c => negb (String.eqb (cl_name s c) n)) l.
Lemma take_contact_filter s n l : NoDup (map (cl_name s) l) ->
  match take_contact s n l with
  | Some (c, r) => r = cflt s n l /\ In c l /\ cl_name s c = n
  | None => cflt s n l = l /\ ~ In n (map (cl_name s) l)
  end.
Proof.
  intros N.
  assert (Habs : forall l, ~ In n (map (cl_name s) l) -> cflt s n l = l).
  { intros l0 H. apply filter_all. intros t Ht. apply negb_true_iff, String.eqb_neq.
    intros E. apply H. rewrite <- E. apply in_map; exact Ht. }
  destruct (take_contact s n l) as [[t r]|] eqn:E.
  - apply take_contact_spec in E. destruct E as (l1 & l2 & -> & -> & En & F).
    rewrite map_app in N. simpl in N. split; [|split; auto].
    + unfold cflt. rewrite filter_app. simpl. rewrite En, String.eqb_refl. simpl.
      fold (cflt s n l1). fold (cflt s n l2). rewrite !Habs; [reflexivity| |].
      * intros H. apply NoDup_remove_2 in N. apply N. rewrite En. apply in_or_app; auto.
      * intros H. apply NoDup_remove_2 in N. apply N. rewrite En. apply in_or_app; auto.
    + apply in_or_app; right; left; reflexivity.
  - apply take_contact_none in E.
    assert (Hn : ~ In n (map (cl_name s) l)).
    { intros H. apply in_map_iff in H. destruct H as (t & Et & Ht).
      rewrite Forall_forall in E. eapply E; eauto. }
    auto.
Qed.

Lemma not3_names n m : not3 n m = true <->
  m <> (n ++ "_motion_task")%string /\ m <> (n ++ "_force_constraint")%string /\ m <> (n ++ "_force_reg_task")%string.
Proof. unfold not3. rewrite !andb_true_iff, !negb_true_iff, !String.eqb_neq. reflexivity. Qed.

(** No name of an absent contact is in the data. *)
Lemma not3_absent s n : invA s -> invB s -> ~ In n (contact_names s) ->
  map (filter (fun e => not3 n (nm s e))) (f_hqp s) = f_hqp s.
Proof.
  intros HA HB Hn. rewrite <- (map_id (f_hqp s)) at 2. apply map_ext_in. intros l Hl.
  apply filter_all. intros e He. apply not3_names.
  assert (Hi : In (nm s e) (hqp_names s)).
  { unfold hqp_names. apply (in_map (nm s)). apply in_concat; eauto. }
  repeat split; intros E; rewrite E in Hi; apply Hn.
  - eapply motion_name_contact; eauto.
  - eapply force_name_contact; eauto.
  - eapply reg_name_contact; eauto.
Qed.

Lemma invB_reindex s l k : f_contacts s = l -> invB s -> invB (w_contacts s (reindex s k l)).
Proof.
  intros El HB. constructor.
  - simpl. rewrite (b_perm _ HB). unfold owners. simpl.
    change (tasks (w_contacts s (reindex s k l))) with (tasks s).
    assert (E : flat_map con_addrs (reindex s k l) = flat_map con_addrs (f_contacts s)).
    { rewrite !flat_map_concat_map. f_equal. rewrite El. apply reindex_shape. reflexivity. }
    rewrite E. reflexivity.
  - apply (b_names _ HB).
  - apply (b_base _ HB).
  - apply (b_task _ HB).
  - simpl. intros c Hc.
    assert (Hc' : exists c', In c' l /\ cl_obj c = cl_obj c' /\ cl_motion c = cl_motion c' /\
                             cl_force c = cl_force c' /\ cl_reg c = cl_reg c').
    { clear El HB. revert k Hc. induction l as [|a l IH]; simpl; intros k Hc; [contradiction|].
      destruct Hc as [<-|Hc].
      - exists a. simpl. auto 10.
      - destruct (IH _ Hc) as (c' & Hi & R). exists c'. auto. }
    destruct Hc' as (c' & Hi & E1 & E2 & E3 & E4). rewrite <- El in Hi.
    destruct (b_con _ HB c' Hi) as ([[[[m nf] mr] fr] rr] & Hok). exists (m, nf, mr, fr, rr).
    unfold con_ok in *. simpl. rewrite E1, E2, E3, E4. exact Hok.
Qed.

(** Ownership after dropping a contact (before resizing). *)
Lemma invB_drop_contact s n :
  invA s -> invB s -> 
  invB (w_contacts (w_hqp s (map (filter (fun e => not3 n (nm s e))) (f_hqp s))) (cflt s n (f_contacts s))).
Proof.
  intros HA HB. set (s' := w_contacts _ _).
  assert (M : mono (fun a => not3 n (name_at (f_heap s) a) = true) s s').
  { repeat split; auto. intros i a Hp Hl. apply (in_level_filter s (not3 n) i a Hp Hl). }
  assert (Nres : forall m, ~ reserved m -> not3 n m = true).
  { intros m Hm. apply not3_names. repeat split; intros ->; apply Hm.
    - apply res_m.
    - apply res_f.
    - apply res_r. }
  assert (Nbase : not3 n (name_at (f_heap s) (f_base s)) = true).
  { destruct (ia_base _ HA) as (c & E & _).
    rewrite (info_name s (f_base s) "base-dynamics" CEq (f_nu s)) by (unfold info; rewrite E; reflexivity).
    apply not3_names. repeat split; intros H; symmetry in H; revert H.
    - apply sfx_mb.
    - apply sfx_fb.
    - apply sfx_rb. }
  assert (Ntask : forall t, In t (tasks s) -> not3 n (name_at (f_heap s) (tl_cstr t)) = true).
  { intros t Ht. destruct (b_task _ HB t Ht) as ((kd & r & E) & Hr & _).
    rewrite (info_name _ _ _ _ _ E). apply Nres; exact Hr. }
  assert (Ncon : forall c a, In c (f_contacts s) -> In a (con_addrs c) ->
             not3 n (name_at (f_heap s) a) = negb (String.eqb (cl_name s c) n)).
  { intros c a Hc Ha. destruct (b_con _ HB c Hc) as ([[[[m nf] mr] fr] rr] & Hok).
    destruct (con_name _ _ _ _ _ _ _ Hok) as [En _].
    destruct Hok as (_ & Em & Ef & Er & _).
    destruct (String.eqb (cl_name s c) n) eqn:E.
    - apply String.eqb_eq in E. simpl. apply not_true_iff_false. intros H. apply not3_names in H.
      destruct H as (H1 & H2 & H3). rewrite En in E. subst m.
      destruct Ha as [<-|[<-|[<-|[]]]].
      + apply H1. eapply info_name; rewrite E in Em; exact Em.
      + apply H2. eapply info_name; rewrite E in Ef; exact Ef.
      + apply H3. eapply info_name; rewrite E in Er; exact Er.
    - apply String.eqb_neq in E. simpl. apply not3_names. rewrite En in E.
      destruct Ha as [<-|[<-|[<-|[]]]].
      + rewrite (info_name _ _ _ _ _ Em). repeat split.
        * intros H. apply append_inj_r in H. auto.
        * apply sfx_mf.
        * apply sfx_mr.
      + rewrite (info_name _ _ _ _ _ Ef). repeat split.
        * intros H. symmetry in H. revert H. apply sfx_mf.
        * intros H. apply append_inj_r in H. auto.
        * apply sfx_fr.
      + rewrite (info_name _ _ _ _ _ Er). repeat split.
        * intros H. symmetry in H. revert H. apply sfx_mr.
        * intros H. symmetry in H. revert H. apply sfx_fr.
        * intros H. apply append_inj_r in H. auto. }
  constructor.
  - change (f_hqp s') with (map (filter (fun e => not3 n (nm s e))) (f_hqp s)).
    rewrite (filter_perm s (not3 n) HB). unfold owners. simpl.
    change (tasks s') with (tasks s). change (f_base s') with (f_base s).
    rewrite Nbase. constructor. rewrite filter_app. apply Permutation_app.
    + rewrite filter_all; [reflexivity|]. intros a Ha. apply in_map_iff in Ha.
      destruct Ha as (t & <- & Ht). apply Ntask; exact Ht.
    + assert (E : filter (fun a => not3 n (name_at (f_heap s) a)) (flat_map con_addrs (f_contacts s))
                  = flat_map con_addrs (cflt s n (f_contacts s))).
      { revert Ncon. generalize (f_contacts s). induction l as [|c l IH]; intros Ncon; [reflexivity|].
        assert (IH' := IH (fun c a H => Ncon c a (or_intror H))). unfold cflt in *.
        simpl. rewrite IH'.
        assert (E1 := fun a => Ncon c a (or_introl eq_refl)).
        rewrite (E1 (cl_motion c)), (E1 (cl_force c)), (E1 (cl_reg c)) by (simpl; auto).
        destruct (negb (String.eqb (cl_name s c) n)); reflexivity. }
      rewrite E. reflexivity.
  - apply (filter_names s (not3 n) (b_names _ HB)).
  - apply M; [exact Nbase|apply (b_base _ HB)].
  - intros t Ht. eapply task_ok_mono; [exact M|apply Ntask; exact Ht|apply (b_task _ HB); exact Ht].
  - simpl. intros c Hc. apply filter_In in Hc. destruct Hc as [Hc Hn].
    destruct (b_con _ HB c Hc) as [x Hok]. exists x.
    eapply con_ok_mono; [exact M| |exact Hok]. intros a Ha.
    change (not3 n (name_at (f_heap s) a) = true). rewrite (Ncon c a Hc Ha). exact Hn.
Qed.

Lemma take_contact_names s n : invA s -> invB s ->
  match take_contact s n (f_contacts s) with
  | Some (c, r) => r = cflt s n (f_contacts s) /\ In c (f_contacts s) /\ cl_name s c = n
  | None => cflt s n (f_contacts s) = f_contacts s /\ ~ In n (contact_names s)
  end.
Proof. intros HA HB. apply take_contact_filter. apply contact_names_nodup; assumption. Qed.

(** removeRigidContact of an absent contact changes nothing. *)
Lemma remove_absent s n s' b :
  invA s -> invB s -> ~ In n (contact_names s) -> remove_contact_now dbg s n = Ret s' b ->
  s' = s /\ b = false.
Proof.
  intros HA HB Hn Hr. assert (T := take_contact_names s n HA HB).
  apply remove_contact_now_spec in Hr. cbv zeta in Hr.
  rewrite (erase3_drop s n (b_names _ HB)) in Hr. rewrite not3_absent in Hr by assumption.
  rewrite w_hqp_id in Hr.
  destruct Hr as [ (Ht & -> & ->) | (c & rest & s4 & mr & fr & Ht & _) ].
  - split; [|reflexivity]. rewrite (reindex_id _ _ _ _ (ia_tile _ HA)). destruct s; reflexivity.
  - rewrite Ht in T. destruct T as (_ & Hc & En). exfalso. apply Hn. rewrite <- En.
    apply in_map; exact Hc.
Qed.

(** removeRigidContact of a present contact. *)
Lemma remove_present s n s' b :
  invA s -> invB s -> In n (contact_names s) -> remove_contact_now dbg s n = Ret s' b ->
  exists c s4 eq' in',
    In c (f_contacts s) /\ cl_name s c = n /\
    resize_hqp (w_contacts (w_in (w_eq (w_k (w_hqp s (map (filter (fun e => not3 n (nm s e))) (f_hqp s)))
        (f_k s - cl_nforce s c)) eq') in') (cflt s n (f_contacts s))) = Some s4 /\
    s' = w_contacts s4 (reindex s4 0 (cflt s n (f_contacts s))) /\
    eq' = (f_eq s - Z.of_nat (if in_dec Nat.eq_dec (cl_motion c) (map snd (level0 s))
                              then rowsAt s is_eq (cl_motion c) else 0))%Z /\
    in' = (f_in s - Z.of_nat (rowsAt s not_eq (cl_force c)))%Z.
Proof.
  intros HA HB Hn Hr. assert (T := take_contact_names s n HA HB).
  apply remove_contact_now_spec in Hr. cbv zeta in Hr.
  rewrite (erase3_drop s n (b_names _ HB)) in Hr.
  destruct Hr as [ (Ht & -> & ->) | (c & rest & s4 & mr & fr & Ht & Hm & (fc & Hfc & Hfr) & Hz & ->) ];
    rewrite Ht in T; [destruct T as [_ T]; contradiction|].
  destruct T as (-> & Hc & En).
  destruct (b_con _ HB c Hc) as ([[[[m nf] mrr] frr] rr] & Hok).
  destruct (con_name _ _ _ _ _ _ _ Hok) as [En' _].
  destruct Hok as (_ & Im & If & _ & (lm & Lm) & Lf & _).
  assert (Emn : m = n) by congruence. rewrite Emn in Im, If.
  eexists c, s4, _, _. split; [exact Hc|]. split; [exact En|]. split; [exact Hz|].
  split; [reflexivity|]. split.
  - destruct (in_dec Nat.eq_dec (cl_motion c) (map snd (level0 s))) as [Hi|Hi].
    + assert (E0 : task_priority (f_heap s) (n ++ "_motion_task") (f_hqp s) = Some 0).
      { unfold level0 in Hi. destruct (f_hqp s) as [|l ls]; [contradiction|]. simpl in *.
        assert (E : level_has (f_heap s) (n ++ "_motion_task") l = true).
        { unfold level_has. apply existsb_exists. apply in_map_iff in Hi. destruct Hi as (e & Ee & He).
          exists e. split; auto. apply String.eqb_eq. rewrite Ee. eapply info_name; exact Im. }
        rewrite E. reflexivity. }
      rewrite E0 in *. destruct (Hm eq_refl) as (mc & Hmc & Hmr).
      f_equal. f_equal. unfold rowsAt. rewrite Im. simpl.
      unfold info, shapes in Im. rewrite nth_error_map, Hmc in Im. simpl in Im. injection Im as _ Ek Er.
      unfold crows in Hmr. rewrite Ek in Hmr. destruct (_ =? _) in Hmr; congruence.
    + assert (E0 : task_priority (f_heap s) (n ++ "_motion_task") (f_hqp s) <> Some 0).
      { intros E. apply Hi. unfold level0.
        assert (Hall : In (cl_motion c) (map snd (concat (f_hqp s)))) by (eapply in_level_in; exact Lm).
        assert (N := b_names _ HB). unfold hqp_names in N.
        destruct (f_hqp s) as [|l ls]; [discriminate|]. simpl in *.
        destruct (level_has (f_heap s) (n ++ "_motion_task") l) eqn:El.
        - unfold level_has in El. apply existsb_exists in El. destruct El as (e & He & Ee).
          apply String.eqb_eq in Ee. apply in_map_iff in Hall. destruct Hall as (e' & Ee' & He').
          assert (e' = e).
          { apply (NoDup_map_inj (fun e => name_at (f_heap s) (snd e)) (l ++ concat ls)); auto.
            - apply in_or_app; auto.
            - rewrite Ee, Ee'. eapply info_name; exact Im. }
          subst e'. rewrite <- Ee'. apply in_map; exact He.
        - destruct (task_priority (f_heap s) (n ++ "_motion_task") ls); discriminate. }
      destruct (task_priority (f_heap s) (n ++ "_motion_task") (f_hqp s)) as [[|p]|]; try lia.
      contradiction E0; reflexivity.
  - f_equal. f_equal. unfold rowsAt. rewrite If. simpl.
    unfold info, shapes in If. rewrite nth_error_map, Hfc in If. simpl in If. injection If as _ Ek Er.
    unfold crows in Hfr. rewrite Ek in Hfr. destruct (_ && _) in Hfr; congruence.
Qed.

Lemma invB_remove_contact_now s n s' b :
  invA s -> invB s -> remove_contact_now dbg s n = Ret s' b -> invB s'.
Proof.
  intros HA HB Hr. destruct (in_dec string_dec n (contact_names s)) as [Hn|Hn].
  - destruct (remove_present s n s' b HA HB Hn Hr) as (c & s4 & eq' & in' & Hc & En & Hz & -> & _ & _).
    set (s3 := w_contacts _ _) in Hz.
    assert (HB3 : invB s3).
    { eapply invB_sameB; [|apply (invB_drop_contact s n HA HB)]. repeat split. }
    assert (HP3 : preA s3).
    { destruct (invA_preA _ HA) as [Pb Pk Pa]. constructor; auto.
      unfold s3; simpl. rewrite concat_map_filter. apply Forall_forall. intros e He.
      apply filter_In in He. rewrite Forall_forall in Pa. apply Pa; tauto. }
    assert (HB4 := invB_resize _ _ HP3 Hz HB3).
    destruct (resize_fields _ _ HP3 Hz) as (_ & _ & F3 & _).
    apply invB_reindex; [exact F3|exact HB4].
  - destruct (remove_absent s n s' b HA HB Hn Hr) as [-> _]. exact HB.
Qed.

Lemma rows0_not3 s n p c :
  invA s -> invB s -> In c (f_contacts s) -> cl_name s c = n ->
  rows0 (w_hqp s (map (filter (fun e => not3 n (nm s e))) (f_hqp s))) p
  + (if in_dec Nat.eq_dec (cl_motion c) (map snd (level0 s)) then rowsAt s p (cl_motion c) else 0)
  + rowsAt s p (cl_force c) = rows0 s p.
Proof.
  intros HA HB Hc En.
  destruct (b_con _ HB c Hc) as ([[[[m nf] mrr] frr] rr] & Hok).
  destruct (con_name _ _ _ _ _ _ _ Hok) as [En' _].
  destruct Hok as (_ & Im & If & Ir & (lm & Lm) & Lf & Lr).
  assert (Emn : m = n) by congruence. rewrite Emn in Im, If, Ir.
  assert (N := b_names _ HB).
  assert (NMm := info_name _ _ _ _ _ Im). assert (NMf := info_name _ _ _ _ _ If).
  assert (NMr := info_name _ _ _ _ _ Ir).
  assert (Am := in_level_in _ _ _ Lm). assert (Af := in_level_in _ _ _ Lf). assert (Ar := in_level_in _ _ _ Lr).
  set (q1 := (n ++ "_motion_task")%string) in *. set (q2 := (n ++ "_force_constraint")%string) in *.
  set (q3 := (n ++ "_force_reg_task")%string) in *.
  assert (D12 : q1 <> q2) by apply sfx_mf. assert (D13 : q1 <> q3) by apply sfx_mr. assert (D23 : q2 <> q3) by apply sfx_fr.
  assert (R1 := rows0_drop s q1 p (cl_motion c) N Am NMm).
  set (s1 := w_hqp s (drop q1 (f_heap s) (f_hqp s))) in *.
  assert (N1 : NoDup (hqp_names s1)) by (apply drop_names; exact N).
  assert (keep : forall (st : fstate) x q a, NoDup (hqp_names st) -> name_at (f_heap st) a = x -> x <> q ->
     In a (map snd (concat (f_hqp st))) -> In a (map snd (concat (f_hqp (w_hqp st (drop q (f_heap st) (f_hqp st))))))).
  { intros st x q a _ Hx Hq Ha. simpl. unfold drop. rewrite concat_map_filter.
    apply in_map_iff in Ha. destruct Ha as (e & Ee & He). apply in_map_iff. exists e. split; auto.
    apply filter_In. split; auto. apply negb_true_iff, String.eqb_neq. rewrite Ee, Hx. exact Hq. }
  assert (keep0 : forall (st : fstate) x q a, name_at (f_heap st) a = x -> x <> q ->
     (In a (map snd (level0 (w_hqp st (drop q (f_heap st) (f_hqp st))))) <-> In a (map snd (level0 st)))).
  { intros st x q a Hx Hq. unfold drop. rewrite level0_drop. split; intros Ha.
    - apply in_map_iff in Ha. destruct Ha as (e & Ee & He). apply filter_In in He.
      apply in_map_iff. exists e; tauto.
    - apply in_map_iff in Ha. destruct Ha as (e & Ee & He). apply in_map_iff. exists e. split; auto.
      apply filter_In. split; auto. apply negb_true_iff, String.eqb_neq. rewrite Ee, Hx. exact Hq. }
  assert (Af1 : In (cl_force c) (map snd (concat (f_hqp s1)))) by (eapply keep; eauto).
  assert (Ar1 : In (cl_reg c) (map snd (concat (f_hqp s1)))) by (eapply keep; eauto).
  assert (R2 := rows0_drop s1 q2 p (cl_force c) N1 Af1 NMf).
  set (s2 := w_hqp s1 (drop q2 (f_heap s1) (f_hqp s1))) in *.
  assert (N2 : NoDup (hqp_names s2)) by (apply drop_names; exact N1).
  assert (Ar2 : In (cl_reg c) (map snd (concat (f_hqp s2)))) by (eapply keep; eauto).
  assert (R3 := rows0_drop s2 q3 p (cl_reg c) N2 Ar2 NMr).
  set (s3 := w_hqp s2 (drop q3 (f_heap s2) (f_hqp s2))) in *.
  assert (E3 : rows0 s3 p = rows0 (w_hqp s (map (filter (fun e => not3 n (nm s e))) (f_hqp s))) p).
  { unfold rows0, level0, s3, s2, s1, drop; simpl. destruct (f_hqp s) as [|l ls]; [reflexivity|]. simpl.
    rewrite !filter_filter. f_equal. f_equal. apply filter_ext. intros e. unfold not3, nm.
    rewrite andb_assoc. reflexivity. }
  rewrite <- E3.
  destruct (in_dec Nat.eq_dec (cl_force c) (map snd (level0 s1))) as [Hf|Hf].
  2:{ exfalso. apply Hf. unfold s1. apply (proj2 (keep0 s q2 q1 (cl_force c) NMf (not_eq_sym D12))).
      apply in_level0. exact Lf. }
  destruct (in_dec Nat.eq_dec (cl_reg c) (map snd (level0 s2))) as [Hr|Hr].
  { exfalso. unfold s2 in Hr. apply (keep0 s1 q3 q2 (cl_reg c) NMr (not_eq_sym D23)) in Hr.
    unfold s1 in Hr. apply (keep0 s q3 q1 (cl_reg c) NMr (not_eq_sym D13)) in Hr.
    apply in_level0 in Hr. assert (E := in_level_unique s _ _ _ HB Hr Lr). discriminate. }
  change (rowsAt s1 p (cl_force c)) with (rowsAt s p (cl_force c)) in R2. lia.
Qed.

Lemma invC_remove_contact_now s n s' b :
  invA s -> invB s -> invC s -> remove_contact_now dbg s n = Ret s' b -> invC s'.
Proof.
  intros HA HB [HE HI] Hr. destruct (in_dec string_dec n (contact_names s)) as [Hn|Hn].
  - destruct (remove_present s n s' b HA HB Hn Hr) as (c & s4 & eq' & in' & Hc & En & Hz & -> & -> & ->).
    set (s3 := w_contacts _ _) in Hz.
    assert (HP3 : preA s3).
    { destruct (invA_preA _ HA) as [Pb Pk Pa]. constructor; auto.
      unfold s3; simpl. rewrite concat_map_filter. apply Forall_forall. intros e He.
      apply filter_In in He. rewrite Forall_forall in Pa. apply Pa; tauto. }
    destruct (resize_fields _ _ HP3 Hz) as (F1 & _ & _ & _ & _ & _ & F7 & F8 & _).
    assert (FI := resize_info _ _ HP3 Hz).
    assert (R : forall p, rows0 (w_contacts s4 (reindex s4 0 (cflt s n (f_contacts s)))) p = rows0 s3 p).
    { intros p. apply rows0_ext.
      - unfold level0; simpl. rewrite F1. reflexivity.
      - intros a _. apply FI. }
    assert (RE := rows0_not3 s n is_eq c HA HB Hc En).
    assert (RI := rows0_not3 s n not_eq c HA HB Hc En).
    set (X := w_hqp s (map (filter (fun e => not3 n (nm s e))) (f_hqp s))) in *.
    assert (R3 : forall p, rows0 s3 p = rows0 X p) by reflexivity.
    unfold invC. rewrite !R, !R3. clear R R3. simpl f_eq. simpl f_in. rewrite F7, F8.
    unfold s3. simpl f_eq. simpl f_in.
    destruct (b_con _ HB c Hc) as ([[[[m nf] mrr] frr] rr] & (_ & Im & If & _)).
    assert (Z1 : rowsAt s is_eq (cl_force c) = 0) by (unfold rowsAt; rewrite If; reflexivity).
    assert (Z2 : rowsAt s not_eq (cl_motion c) = 0) by (unfold rowsAt; rewrite Im; reflexivity).
    rewrite Z1 in RE. rewrite Z2 in RI.
    destruct (in_dec Nat.eq_dec (cl_motion c) (map snd (level0 s))); lia.
  - destruct (remove_absent s n s' b HA HB Hn Hr) as [-> _]. split; assumption.
Qed.

(** ** Counters: remaining calls *)
Lemma invC_same s s' : same s s' -> invC s -> invC s'.
Proof.
  intros H [E I]. unfold invC. rewrite (sm_eq _ _ H), (sm_in _ _ H).
  assert (R : forall p, rows0 s' p = rows0 s p).
  { intros p. apply rows0_ext.
    - unfold level0. rewrite (sm_hqp _ _ H). reflexivity.
    - intros a _. apply same_info; exact H. }
  rewrite !R. auto.
Qed.

Lemma rows0_reweight s ls p : addrs ls = addrs (f_hqp s) -> rows0 (w_hqp s ls) p = rows0 s p.
Proof.
  intros E. apply rows0_ext; [|reflexivity].
  unfold level0; simpl. unfold addrs in E. destruct ls, (f_hqp s); simpl in *; try discriminate; auto.
  injection E as E _. exact E.
Qed.
Lemma invC_reweight s ls : addrs ls = addrs (f_hqp s) -> invC s -> invC (w_hqp s ls).
Proof. intros E [H1 H2]. unfold invC. rewrite !rows0_reweight by exact E. auto. Qed.

Lemma invC_add_task s n kd r w lvl s' a :
  invA s -> invC s -> add_task_cstr s n kd r w lvl = Some (s', a) -> invC s'.
Proof.
  intros HA [HE HI] Ha. apply add_task_cstr_spec in Ha.
  destruct Ha as (hq0 & hq & x & Hq & Hx & _ & Hp & -> & ->).
  assert (HV0 : valid (w_hqp s hq0)).
  { unfold valid; simpl. destruct Hq as [-> | ->]; [|rewrite grow_concat]; apply invA_valid; exact HA. }
  assert (L0 : level0 (w_hqp s hq0) = level0 s).
  { unfold level0; simpl. assert (L := ia_lev _ HA). destruct Hq as [-> | ->]; [reflexivity|].
    unfold grow. destruct (f_hqp s); [simpl in L; lia|reflexivity]. }
  assert (R := fun p => rows0_push (w_hqp s hq0) (new_task_cstr n kd r (nVar s)) w lvl hq p Hp HV0).
  rewrite new_task_rows in R.
  assert (R0 : forall p, rows0 (w_hqp s hq0) p = rows0 s p).
  { intros p. apply rows0_ext; [rewrite L0; reflexivity|reflexivity]. }
  unfold invC.
  assert (RE := R is_eq). assert (RI := R not_eq). rewrite !R0 in RE, RI.
  assert (Ek : not_eq (c_kind (new_task_cstr (K:=K) n kd r (nVar s))) = not_eq kd).
  { unfold not_eq. rewrite new_task_is_eq. reflexivity. }
  rewrite new_task_is_eq in RE. rewrite Ek in RI. clear Ek R.
  simpl f_eq. simpl f_in.
  match goal with |- _ = Z.of_nat (rows0 ?S _) /\ _ =>
    assert (X : forall p, rows0 S p = rows0 (w_hqp (w_heap (w_hqp s hq0)
      (f_heap (w_hqp s hq0) ++ [new_task_cstr n kd r (nVar s)])) hq) p)
      by (intros p; destruct (lvl =? 0); [destruct (is_eq kd)|]; reflexivity) end.
  rewrite !X, RE, RI. clear X RE RI.
  destruct (lvl =? 0); [destruct kd; simpl|]; lia.
Qed.

Lemma invC_add_contact s o wr wm lvl s' b :
  invA s -> invC s -> add_contact s o wr wm lvl = Ret s' b -> invC s'.
Proof.
  intros HA [HE HI] Ha. apply add_contact_spec in Ha.
  destruct Ha as (_ & x & s1 & q1 & q2 & q3 & Hx & Hr & P1 & P2 & P3 & ->).
  assert (HP : preA (w_k s (f_k s + co_nforce x))) by (destruct (invA_preA _ HA); constructor; auto).
  destruct (resize_fields _ _ HP Hr) as (F1 & F2 & F3 & F4 & F5 & F6 & _).
  simpl in F1, F2, F3, F4, F5, F6.
  assert (FI := resize_info _ _ HP Hr).
  assert (HV1 : valid s1).
  { unfold valid. rewrite F1, F6. apply invA_valid; exact HA. }
  set (l := List.length (f_heap s1)) in *.
  set (cm := new_eq (co_name x ++ "_motion_task") (co_mrows x) (nVar s1)) in *.
  set (cf := new_ineq (co_name x ++ "_force_constraint") (co_frows x) (nVar s1)) in *.
  set (cr := new_eq (co_name x ++ "_force_reg_task") (co_rrows x) (nVar s1)) in *.
  set (s2 := w_hqp (w_heap s1 (f_heap s1 ++ [cm])) q1).
  assert (L2 : List.length (f_heap s2) = S l) by (unfold s2; simpl; rewrite len1; reflexivity).
  set (s3 := w_hqp (w_heap s2 (f_heap s2 ++ [cf])) q2).
  assert (L3 : List.length (f_heap s3) = S (S l)) by (unfold s3; simpl; rewrite len1, len1; reflexivity).
  set (s4 := w_hqp (w_heap s3 (f_heap s3 ++ [cr])) q3).
  assert (P2' : push_level (f_hqp s2) 0 (n1, List.length (f_heap s2)) = Some q2) by (rewrite L2; exact P2).
  assert (P3' : push_level (f_hqp s3) 1 (wr, List.length (f_heap s3)) = Some q3) by (rewrite L3; exact P3).
  assert (HV2 : valid s2) by (apply (push_valid s1 cm wm lvl q1 P1 HV1)).
  assert (HV3 : valid s3) by (apply (push_valid s2 cf n1 0 q2 P2' HV2)).
  assert (R1 : forall p, rows0 s1 p = rows0 s p).
  { intros p. apply rows0_ext; [unfold level0; rewrite F1; reflexivity|intros; apply FI]. }
  assert (R2 := fun p => rows0_push s1 cm wm lvl q1 p P1 HV1). fold s2 in R2.
  assert (R3 := fun p => rows0_push s2 cf n1 0 q2 p P2' HV2). fold s3 in R3.
  assert (R4 := fun p => rows0_push s3 cr wr 1 q3 p P3' HV3). fold s4 in R4.
  assert (E4 : f_heap s1 ++ [cm] ++ [cf] ++ [cr] = f_heap s4).
  { unfold s4, s3, s2; simpl. rewrite <- !app_assoc. reflexivity. }
  rewrite E4. unfold invC. simpl f_eq. simpl f_in.
  match goal with |- _ = Z.of_nat (rows0 ?S _) /\ _ =>
    assert (X : forall p, rows0 S p = rows0 s4 p) by reflexivity end.
  rewrite !X, !R4, !R3, !R2, !R1. simpl.
  destruct (lvl =? 0); simpl; lia.
Qed.

(** ** Whole histories *)
Definition invAB s := invA s /\ invB s.
Definition invABC s := invA s /\ invB s /\ invC s.

Lemma invB_objs s x : invA s -> invB s -> invB (w_objs s (f_objs s ++ [x])).
Proof.
  intros HA HB.
  assert (M : mono any s (w_objs s (f_objs s ++ [x]))).
  { repeat split; auto. intros o y H. simpl. rewrite map_app.
    change (map oshape [x]) with [oshape x]. apply nth_error_app_old; exact H. }
  constructor.
  - apply (b_perm _ HB).
  - apply (b_names _ HB).
  - apply (b_base _ HB).
  - intros t Ht. eapply task_ok_mono; [exact M|exact I|apply (b_task _ HB); exact Ht].
  - intros c Hc. destruct (b_con _ HB c Hc) as [y Hy]. exists y.
    eapply con_ok_mono; [exact M|intros; exact I|exact Hy].
Qed.

Lemma tasks_motions s t :
  Permutation (tasks (w_motions s (f_motions s ++ [t]))) (t :: tasks s).
Proof. unfold tasks; simpl. rewrite <- app_assoc. simpl. symmetry. apply Permutation_middle. Qed.
Lemma tasks_forces s t :
  Permutation (tasks (w_forces s (f_forces s ++ [t]))) (t :: tasks s).
Proof.
  unfold tasks; simpl. rewrite <- app_assoc. simpl.
  rewrite (Permutation_middle (f_motions s)). apply Permutation_app_head. symmetry.
  apply Permutation_middle.
Qed.
Lemma tasks_acts s t :
  Permutation (tasks (w_acts s (f_acts s ++ [t]))) (t :: tasks s).
Proof.
  unfold tasks; simpl. rewrite !app_assoc. symmetry. apply Permutation_cons_append.
Qed.

Lemma remove_now_no_exc s n s' : remove_contact_now dbg s n <> Exc s'.
Proof.
  unfold remove_contact_now.
  match goal with |- match ?t with _ => _ end <> _ => destruct t as [[? ?]|]; discriminate end.
Qed.
Lemma add_contact_no_exc s o wr wm l s' : add_contact s o wr wm l <> Exc s'.
Proof.
  unfold add_contact.
  match goal with |- match ?t with _ => _ end <> _ => destruct t; discriminate end.
Qed.

Lemma invB_step s o s' : invA s -> invB s -> names_ok s o -> after (step s o) = Some s' -> invB s'.
Proof.
  intros HA HB HN Ha. destruct o; simpl in Ha, HN; try rewrite lift_after in Ha.
  - injection Ha as <-. apply invB_objs; assumption.
  - destruct (obj_set_fmin s o f) as [s1 b1|s1|] eqn:E; [| |discriminate]; injection Ha as <-.
    + eapply invB_same; [eapply set_fmin_same; exact E|exact HB].
    + unfold obj_set_fmin in E. destruct (cobj_at _ _); [|discriminate].
      destruct (_ || _); [discriminate|]. injection E as <-. exact HB.
  - destruct (obj_set_fmax s o f) as [s1 b1|s1|] eqn:E; [| |discriminate]; injection Ha as <-.
    + eapply invB_same; [eapply set_fmax_same; exact E|exact HB].
    + unfold obj_set_fmax in E. destruct (cobj_at _ _); [|discriminate].
      destruct (_ || _); [discriminate|]. injection E as <-. exact HB.
  - unfold add_motion in Ha. destruct (args_ok w dur); [|injection Ha as <-; exact HB].
    destruct (add_task_cstr s name kd rows w lvl) as [[s1 a]|] eqn:E; [|discriminate].
    injection Ha as <-. destruct HN as [HN1 HN2].
    apply (invB_add_task s name kd rows w lvl s1 a (fun s t => w_motions s (f_motions s ++ [t])) id HA HB HN1 HN2 E).
    intros s2 t. repeat split. apply tasks_motions.
  - unfold add_force in Ha. destruct (args_ok w dur); [|injection Ha as <-; exact HB].
    destruct (add_task_cstr s name kd rows w lvl) as [[s1 a]|] eqn:E; [|discriminate].
    injection Ha as <-. destruct HN as [HN1 HN2].
    apply (invB_add_task s name kd rows w lvl s1 a (fun s t => w_forces s (f_forces s ++ [t])) id HA HB HN1 HN2 E).
    intros s2 t. repeat split. apply tasks_forces.
  - unfold add_act in Ha. destruct (args_ok w dur); [|injection Ha as <-; exact HB].
    destruct (add_task_cstr s name kd rows w lvl) as [[s1 a]|] eqn:E; [|discriminate].
    injection Ha as <-. destruct HN as [HN1 HN2].
    apply (invB_add_task s name kd rows w lvl s1 a (fun s t => w_acts s (f_acts s ++ [t])) id HA HB HN1 HN2 E).
    intros s2 t. repeat split. apply tasks_acts.
  - unfold upd_task_weight in Ha. destruct (f_hqp s) as [|l0 ls] eqn:E.
    + injection Ha as <-. exact HB.
    + destruct (upd_weight_levels _ _ _ _) as [ls'|] eqn:E'; injection Ha as <-; [|exact HB].
      apply invB_reweight; [|exact HB]. rewrite E. simpl. f_equal.
      eapply upd_weight_levels_addrs; exact E'.
  - destruct (add_contact s o wreg wmot lvl) as [s1 b1|s1|] eqn:E; [| |discriminate]; injection Ha as <-.
    + eapply invB_add_contact; eauto.
    + exfalso; eapply add_contact_no_exc; eauto.
  - unfold upd_contact_weights in Ha. destruct (f_hqp s) as [|l0 ls] eqn:E.
    + injection Ha as <-. exact HB.
    + assert (E' := upd_cw_levels_addrs (f_heap s) name wf wm ls false false).
      destruct (upd_cw_levels _ _ _ _ _ _ _) as [ls' b]; injection Ha as <-.
      apply invB_reweight; [|exact HB]. rewrite E. simpl in *. f_equal. exact E'.
  - injection Ha as <-. eapply invB_sameB; [|exact HB]. repeat split.
  - destruct (remove_task dbg s name) as [s1 b1|s1|] eqn:E; [| |discriminate]; injection Ha as <-.
    + eapply invB_remove_task; eauto.
    + exfalso. unfold remove_task in E. destruct (erase_hqp s name).
      repeat match type of E with
      | match ?x with _ => _ end = _ => destruct x; try discriminate
      | (if ?x then _ else _) = _ => destruct x; try discriminate
      end.
  - unfold remove_contact in Ha. destruct (_ <? _)%num.
    + destruct (find_contact s name); [|injection Ha as <-; exact HB].
      destruct (cobj_at _ _); [|discriminate]. injection Ha as <-.
      eapply invB_sameB; [|exact HB]. repeat split.
    + destruct (remove_contact_now dbg s name) as [s1 b1|s1|] eqn:E; [| |discriminate]; injection Ha as <-.
      * eapply invB_remove_contact_now; eauto.
      * exfalso; eapply remove_now_no_exc; eauto.
  - unfold remove_meas in Ha. destruct (take_meas _ _); injection Ha as <-; [|exact HB].
    eapply invB_sameB; [|exact HB]. repeat split.
  - unfold compute in Ha.
    assert (HR : forall o1 s1, run_transitions dbg (w_t s t) [] (f_trans (w_t s t)) = o1 -> after o1 = Some s1 -> invAB s1).
    { intros o1 s1 E1 E2. eapply (run_transitions_inv dbg invAB); [| | | |exact E1|exact E2].
      - intros x y Hxy [X Y]. split; [eapply invA_same; eauto|eapply invB_same; eauto].
      - intros x l [X Y]. split; [apply invA_trans; exact X|eapply invB_sameB; [|exact Y]; repeat split].
      - intros x n y b [X Y] Hr. split; [eapply invA_remove_contact_now; eauto|eapply invB_remove_contact_now; eauto].
      - split; [destruct HA; constructor; auto|eapply invB_sameB; [|exact HB]; repeat split]. }
    destruct (run_transitions dbg (w_t s t) [] (f_trans (w_t s t))) as [s1 u|s1|]; [| |discriminate].
    + destruct (comp_fill s1 e) as [s2|] eqn:E2; [|discriminate]. injection Ha as <-.
      eapply invB_same; [eapply comp_fill_same; exact E2|]. apply (HR (Ret s1 u) s1 eq_refl eq_refl).
    + injection Ha as <-. apply (HR (Exc s1) s1 eq_refl eq_refl).
  - unfold get in Ha. destruct (decode s x) as [s1|] eqn:E; [|discriminate].
    assert (H1 := invB_same _ _ (decode_same _ _ _ E) HB).
    destruct g; try (injection Ha as <-; exact H1).
    destruct (find_contact s1 name); [|injection Ha as <-; exact H1].
    destruct (vsegment _ _ _); [|discriminate]. injection Ha as <-; exact H1.
Qed.

Lemma invC_step s o s' : invA s -> invB s -> invC s -> names_ok s o -> no_hard_force_removal s o ->
  after (step s o) = Some s' -> invC s'.
Proof.
  intros HA HB HC HN HF Ha. destruct o; simpl in Ha, HN, HF; try rewrite lift_after in Ha.
  - injection Ha as <-. exact HC.
  - destruct (obj_set_fmin s o f) as [s1 b1|s1|] eqn:E; [| |discriminate]; injection Ha as <-.
    + eapply invC_same; [eapply set_fmin_same; exact E|exact HC].
    + unfold obj_set_fmin in E. destruct (cobj_at _ _); [|discriminate].
      destruct (_ || _); [discriminate|]. injection E as <-. exact HC.
  - destruct (obj_set_fmax s o f) as [s1 b1|s1|] eqn:E; [| |discriminate]; injection Ha as <-.
    + eapply invC_same; [eapply set_fmax_same; exact E|exact HC].
    + unfold obj_set_fmax in E. destruct (cobj_at _ _); [|discriminate].
      destruct (_ || _); [discriminate|]. injection E as <-. exact HC.
  - unfold add_motion in Ha. destruct (args_ok w dur); [|injection Ha as <-; exact HC].
    destruct (add_task_cstr s name kd rows w lvl) as [[s1 a]|] eqn:E; [|discriminate].
    injection Ha as <-. apply (invC_add_task _ _ _ _ _ _ _ _ HA HC E).
  - unfold add_force in Ha. destruct (args_ok w dur); [|injection Ha as <-; exact HC].
    destruct (add_task_cstr s name kd rows w lvl) as [[s1 a]|] eqn:E; [|discriminate].
    injection Ha as <-. apply (invC_add_task _ _ _ _ _ _ _ _ HA HC E).
  - unfold add_act in Ha. destruct (args_ok w dur); [|injection Ha as <-; exact HC].
    destruct (add_task_cstr s name kd rows w lvl) as [[s1 a]|] eqn:E; [|discriminate].
    injection Ha as <-. apply (invC_add_task _ _ _ _ _ _ _ _ HA HC E).
  - unfold upd_task_weight in Ha. destruct (f_hqp s) as [|l0 ls] eqn:E.
    + injection Ha as <-. exact HC.
    + destruct (upd_weight_levels _ _ _ _) as [ls'|] eqn:E'; injection Ha as <-; [|exact HC].
      apply invC_reweight; [|exact HC]. rewrite E. simpl. f_equal.
      eapply upd_weight_levels_addrs; exact E'.
  - destruct (add_contact s o wreg wmot lvl) as [s1 b1|s1|] eqn:E; [| |discriminate]; injection Ha as <-.
    + eapply invC_add_contact; eauto.
    + exfalso; eapply add_contact_no_exc; eauto.
  - unfold upd_contact_weights in Ha. destruct (f_hqp s) as [|l0 ls] eqn:E.
    + injection Ha as <-. exact HC.
    + assert (E' := upd_cw_levels_addrs (f_heap s) name wf wm ls false false).
      destruct (upd_cw_levels _ _ _ _ _ _ _) as [ls' b]; injection Ha as <-.
      apply invC_reweight; [|exact HC]. rewrite E. simpl in *. f_equal. exact E'.
  - injection Ha as <-. exact HC.
  - destruct (remove_task dbg s name) as [s1 b1|s1|] eqn:E; [| |discriminate]; injection Ha as <-.
    + eapply invC_remove_task; eauto.
    + exfalso. unfold remove_task in E. destruct (erase_hqp s name).
      repeat match type of E with
      | match ?x with _ => _ end = _ => destruct x; try discriminate
      | (if ?x then _ else _) = _ => destruct x; try discriminate
      end.
  - unfold remove_contact in Ha. destruct (_ <? _)%num.
    + destruct (find_contact s name); [|injection Ha as <-; exact HC].
      destruct (cobj_at _ _); [|discriminate]. injection Ha as <-. exact HC.
    + destruct (remove_contact_now dbg s name) as [s1 b1|s1|] eqn:E; [| |discriminate]; injection Ha as <-.
      * eapply invC_remove_contact_now; eauto.
      * exfalso; eapply remove_now_no_exc; eauto.
  - unfold remove_meas in Ha. destruct (take_meas _ _); injection Ha as <-; exact HC.
  - unfold compute in Ha.
    assert (HR : forall o1 s1, run_transitions dbg (w_t s t) [] (f_trans (w_t s t)) = o1 -> after o1 = Some s1 -> invABC s1).
    { intros o1 s1 E1 E2. eapply (run_transitions_inv dbg invABC); [| | | |exact E1|exact E2].
      - intros x y Hxy (X & Y & Z). split; [eapply invA_same; eauto|split; [eapply invB_same; eauto|eapply invC_same; eauto]].
      - intros x l (X & Y & Z). split; [apply invA_trans; exact X|split; [eapply invB_sameB; [|exact Y]; repeat split|exact Z]].
      - intros x n y b (X & Y & Z) Hr. split; [eapply invA_remove_contact_now; eauto|].
        split; [eapply invB_remove_contact_now; eauto|eapply invC_remove_contact_now; eauto].
      - split; [destruct HA; constructor; auto|split; [eapply invB_sameB; [|exact HB]; repeat split|exact HC]]. }
    destruct (run_transitions dbg (w_t s t) [] (f_trans (w_t s t))) as [s1 u|s1|]; [| |discriminate].
    + destruct (comp_fill s1 e) as [s2|] eqn:E2; [|discriminate]. injection Ha as <-.
      eapply invC_same; [eapply comp_fill_same; exact E2|]. apply (HR (Ret s1 u) s1 eq_refl eq_refl).
    + injection Ha as <-. apply (HR (Exc s1) s1 eq_refl eq_refl).
  - unfold get in Ha. destruct (decode s x) as [s1|] eqn:E; [|discriminate].
    assert (H1 := invC_same _ _ (decode_same _ _ _ E) HC).
    destruct g; try (injection Ha as <-; exact H1).
    destruct (find_contact s1 name); [|injection Ha as <-; exact H1].
    destruct (vsegment _ _ _); [|discriminate]. injection Ha as <-; exact H1.
Qed.

Lemma invB_init nv na M0 H0 : invB (init (K:=K) nv na M0 H0).
Proof.
  constructor; simpl.
  - reflexivity.
  - unfold hqp_names; simpl. repeat constructor; auto.
  - exists [(n1, 0)]. split; [reflexivity|left; reflexivity].
  - intros t [].
  - intros c [].
Qed.
Lemma invC_init nv na M0 H0 : invC (init (K:=K) nv na M0 H0).
Proof.
  unfold invC, rows0, level0, rowsAt, info, shapes, new_eq, shape; simpl. split; [f_equal; lia|reflexivity].
Qed.

Theorem invAB_reach nv na M0 H0 (P : fstate -> fop K -> Prop) s :
  (forall s o, P s o -> names_ok s o) ->
  reach step P (init nv na M0 H0) s -> invA s /\ invB s.
Proof.
  intros HP Hr. apply (reach_inv step P invAB (init nv na M0 H0) s); auto.
  - split; [apply invA_init|apply invB_init].
  - intros x o y [X Y] Hp Hs. split; [eapply invA_step; eauto|eapply invB_step; eauto].
Qed.

Theorem invABC_reach nv na M0 H0 s :
  reach step (fun s o => names_ok s o /\ no_hard_force_removal s o) (init nv na M0 H0) s ->
  invA s /\ invB s /\ invC s.
Proof.
  intros Hr. apply (reach_inv step _ invABC (init nv na M0 H0) s) in Hr; auto.
  - split; [apply invA_init|split; [apply invB_init|apply invC_init]].
  - intros x o y (X & Y & Z) [Hp Hq] Hs.
    split; [eapply invA_step; eauto|split; [eapply invB_step; eauto|eapply invC_step; eauto]].
Qed.

End InvC.
