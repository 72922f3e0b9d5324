(** What stays true in a formulation whose every call is soft (C110): nothing hard moves, and what
    is soft can be weighed. *)
From Coq Require Import String List Arith Bool ZArith Lia Permutation Reals Lra.
From Verif Require Import Scalar Outcome Linalg Constraint Formulation ListUtil FormSpec FormDataSpec FormPhysSpec RSum FormInv FormInvB FormInvC FormOps FormSafe FormSafe2 FormData FormPhys FormMain FormLevels FormSolver SoftTasks SoftPlan SoftOrder SoftOrderR SoftContacts.
Import ListNotations.
Open Scope string_scope.
Open Scope list_scope.
Open Scope nat_scope.

Section Calls.
Variable dbg : bool.
Implicit Types (s : fstate Rnum).
Local Notation step := (@Formulation.step Rnum dbg).
Local Notation entry := (car Rnum * nat)%type.

(** An entry of level [i]. *)
Definition entry_ok s (i : nat) (en : entry) : Prop :=
  exists n kd r, info s (snd en) = Some (n, kd, r) /\
  match i with 0 => forall x, n <> (x ++ "_motion_task")%string | _ => (0 <= fst en)%R /\ kd = CEq end.
Definition entries_ok s : Prop := forall i l en, nth_error (f_hqp s) i = Some l -> In en l -> entry_ok s i en.
Definition prios_ok s : Prop := forall t, In t (f_motions s ++ f_forces s) -> tl_prio t = 1.
Definition inv_soft s : Prop := invA s /\ invB s /\ entries_ok s /\ prios_ok s.

(** Fewer entries, with the same constraints. *)
Definition fewer s s' : Prop := (forall i l', nth_error (f_hqp s') i = Some l' -> exists l, nth_error (f_hqp s) i = Some l /\ incl l' l) /\
  (forall a, info s' a = info s a) /\ incl (f_motions s' ++ f_forces s') (f_motions s ++ f_forces s).
Lemma fewer_ok s s' : fewer s s' -> entries_ok s -> prios_ok s -> entries_ok s' /\ prios_ok s'.
Proof.
  intros (H1 & H2 & H3) E P. split.
  - intros i l en Hl Hen. destruct (H1 i l Hl) as (l0 & Hl0 & Hi). destruct (E i l0 en Hl0 (Hi _ Hen)) as (n & kd & r & X & Y). exists n, kd, r. rewrite H2. auto.
  - intros t Ht. apply P, H3, Ht.
Qed.
Lemma fewer_trans s1 s2 s3 : fewer s1 s2 -> fewer s2 s3 -> fewer s1 s3.
Proof.
  intros (A1 & A2 & A3) (B1 & B2 & B3). split; [|split].
  - intros i l Hl. destruct (B1 i l Hl) as (l2 & H2 & I2). destruct (A1 i l2 H2) as (l1 & H1 & I1). exists l1. split; [exact H1|eapply incl_tran; eassumption].
  - intros a. rewrite B2. apply A2.
  - eapply incl_tran; eassumption.
Qed.
Lemma fewer_same s s' : same s s' -> fewer s s'.
Proof.
  intros H. split; [|split].
  - intros i l Hl. rewrite (sm_hqp _ _ H) in Hl. exists l. split; [exact Hl|apply incl_refl].
  - intros a. apply same_info, H.
  - rewrite (sm_mot _ _ H), (sm_for _ _ H). apply incl_refl.
Qed.
Lemma fewer_eq s s' : f_hqp s' = f_hqp s -> f_heap s' = f_heap s -> f_motions s' = f_motions s -> f_forces s' = f_forces s -> fewer s s'.
Proof.
  intros H1 H2 H3 H4. split; [|split].
  - intros i l Hl. rewrite H1 in Hl. exists l. split; [exact Hl|apply incl_refl].
  - intros a. unfold info, shapes. rewrite H2. reflexivity.
  - rewrite H3, H4. apply incl_refl.
Qed.
Lemma erase_level_incl h n (l : list entry) : forall l', erase_level h n l = Some l' -> incl l' l.
Proof.
  induction l as [|e l IH]; intros l' X; cbn [erase_level] in X; [discriminate X|]. destruct (String.eqb (name_at h (snd e)) n).
  - injection X as <-. apply incl_tl, incl_refl.
  - destruct (erase_level h n l) as [r|]; [|discriminate X]. injection X as <-. apply incl_cons; [left; reflexivity|apply incl_tl, IH; reflexivity].
Qed.
Lemma erase_levels_incl h n (ls : list (list entry)) : forall ls' i l', erase_levels h n ls = Some ls' -> nth_error ls' i = Some l' -> exists l, nth_error ls i = Some l /\ incl l' l.
Proof.
  induction ls as [|l ls IH]; intros ls' i l' X Hl; cbn [erase_levels] in X; [discriminate X|]. destruct (erase_level h n l) as [r|] eqn:E.
  - injection X as <-. destruct i; cbn [nth_error] in *; [injection Hl as <-; exists l; split; [reflexivity|eapply erase_level_incl; exact E]|exists l'; split; [exact Hl|apply incl_refl]].
  - destruct (erase_levels h n ls) as [r|] eqn:E2; [|discriminate X]. injection X as <-. destruct i; cbn [nth_error] in *; [injection Hl as <-; exists l; split; [reflexivity|apply incl_refl]|apply (IH r); auto].
Qed.
Lemma erase_fewer s n : fewer s (fst (erase_hqp s n)).
Proof.
  unfold erase_hqp. destruct (erase_levels (f_heap s) n (f_hqp s)) as [ls|] eqn:E; cbn [fst]; [|apply fewer_eq; reflexivity].
  split; [|split; [reflexivity|apply incl_refl]]. intros i l Hl. eapply erase_levels_incl; [exact E|exact Hl].
Qed.
Lemma erase3_fewer s n : fewer s (erase3 s n).
Proof. unfold erase3. eapply fewer_trans; [eapply fewer_trans; apply erase_fewer|apply erase_fewer]. Qed.

Lemma resize_fewer s s' : preA s -> resize_hqp s = Some s' -> fewer s s'.
Proof.
  intros P Hr. destruct (resize_fields _ _ P Hr) as (F1 & _). destruct (resize_hqp_spec _ _ P Hr) as [_ Es].
  split; [intros i l Hl; rewrite F1 in Hl; exists l; split; [exact Hl|apply incl_refl]|].
  split; [intros a; apply (resize_info _ _ P Hr)|]. rewrite Es. apply incl_refl.
Qed.
Lemma remove_now_fewer s n s' b : invA s -> remove_contact_now dbg s n = Ret s' b -> fewer s s'.
Proof.
  intros HA X. apply remove_contact_now_spec in X. cbv zeta in X. assert (E3 := erase3_fewer s n). assert (PA := invA_preA _ (erase3_inv s n HA)).
  set (u := erase3 s n) in *. clearbody u.
  destruct X as [(_ & _ & ->)|(c & r & s4 & mr & fr & _ & _ & _ & Hr & ->)].
  - eapply fewer_trans; [exact E3|]. apply fewer_eq; reflexivity.
  - eapply fewer_trans; [exact E3|]. eapply fewer_trans; [|apply (fewer_eq s4); reflexivity].
    eapply fewer_trans; [|eapply resize_fewer; [|exact Hr]].
    + apply fewer_eq; reflexivity.
    + destruct PA; constructor; auto.
Qed.
Lemma take_incl n (l : list tlevel) : forall t r, take_task n l = Some (t, r) -> incl r l.
Proof.
  induction l as [|a l IH]; intros t r X; cbn [take_task] in X; [discriminate X|]. destruct (String.eqb (tl_name a) n).
  - injection X as <- <-. apply incl_tl, incl_refl.
  - destruct (take_task n l) as [[t1 r1]|]; [|discriminate X]. injection X as <- <-. apply incl_cons; [left; reflexivity|apply incl_tl; eapply IH; reflexivity].
Qed.
Lemma remove_task_fewer s n s' : after (lift OutBool (remove_task dbg s n)) = Some s' -> fewer s s'.
Proof.
  unfold remove_task. assert (E := erase_fewer s n). destruct (erase_hqp s n) as [s1 b]. cbn [fst] in E. intros X.
  eapply fewer_trans; [exact E|]. clear E. destruct (assert_ dbg b); [|discriminate X].
  assert (Keep : forall q m f, f_hqp q = f_hqp s1 -> f_heap q = f_heap s1 -> f_motions q = m -> f_forces q = f -> incl m (f_motions s1) -> incl f (f_forces s1) -> fewer s1 q).
  { clear. intros q m f H1 H2 H3 H4 I1 I2. split; [|split].
    - intros i l Hl. rewrite H1 in Hl. exists l. split; [exact Hl|apply incl_refl].
    - intros a. unfold info, shapes. rewrite H2. reflexivity.
    - rewrite H3, H4. intros t Ht. apply in_app_or in Ht. apply in_or_app. destruct Ht; [left; apply I1|right; apply I2]; assumption. }
  destruct (take_task n (f_motions s1)) as [[tk r]|] eqn:Em.
  { apply take_incl in Em. destruct (tl_prio tk =? 0); [destruct (tl_rows s1 tk) as [[kd m]|]; [destruct kd|]|]; cbn in X; try discriminate X; injection X as <-;
      (eapply Keep; [reflexivity|reflexivity|reflexivity|reflexivity|exact Em|apply incl_refl]). }
  destruct (take_task n (f_forces s1)) as [[tk r]|] eqn:Ef.
  { apply take_incl in Ef. cbn in X. injection X as <-. eapply Keep; [reflexivity|reflexivity|reflexivity|reflexivity|apply incl_refl|exact Ef]. }
  destruct (take_task n (f_acts s1)) as [[tk r]|].
  { destruct (tl_prio tk =? 0); [destruct (tl_rows s1 tk) as [[kd m]|]; [destruct kd|]|]; cbn in X; try discriminate X; injection X as <-; apply fewer_eq; reflexivity. }
  cbn in X. injection X as <-. apply fewer_eq; reflexivity.
Qed.

(** Changes of weights. *)
Lemma upd_level_entries h n (w : R) (l : list entry) : forall l' en', upd_weight_level (K:=Rnum) h n w l = Some l' -> In en' l' -> exists en, In en l /\ snd en = snd en' /\ (fst en' = fst en \/ fst en' = w).
Proof.
  induction l as [|e l IH]; intros l' en' X Hi; cbn [upd_weight_level] in X; [discriminate X|]. destruct (String.eqb (name_at h (snd e)) n).
  - injection X as <-. destruct Hi as [<-|Hi]; [exists e; cbn; auto|exists en'; cbn; auto].
  - destruct (upd_weight_level h n w l) as [r|]; [|discriminate X]. injection X as <-. destruct Hi as [<-|Hi]; [exists e; cbn; auto|].
    destruct (IH r en' eq_refl Hi) as (en & I1 & I2 & I3). exists en. split; [right; exact I1|auto].
Qed.
Lemma upd_levels_entries h n (w : R) (ls : list (list entry)) : forall ls' i l' en', upd_weight_levels (K:=Rnum) h n w ls = Some ls' -> nth_error ls' i = Some l' -> In en' l' ->
  exists l en, nth_error ls i = Some l /\ In en l /\ snd en = snd en' /\ (fst en' = fst en \/ fst en' = w).
Proof.
  induction ls as [|l ls IH]; intros ls' i l' en' X Hl Hi; cbn [upd_weight_levels] in X; [discriminate X|]. destruct (upd_weight_level h n w l) as [r|] eqn:E.
  - injection X as <-. destruct i; cbn [nth_error] in *; [injection Hl as <-; destruct (upd_level_entries h n w l r en' E Hi) as (en & I1); exists l, en; auto|exists l', en'; auto].
  - destruct (upd_weight_levels h n w ls) as [r|] eqn:E2; [|discriminate X]. injection X as <-. destruct i; cbn [nth_error] in *; [injection Hl as <-; exists l, en'; auto|exact (IH r i l' en' eq_refl Hl Hi)].
Qed.
Lemma n0_le (w : R) : (n0 <=? (w : Rnum))%num = true -> (0 <= w)%R.
Proof. exact (proj1 (Rleb_true 0 w)). Qed.
Lemma cw_level_entries h n (wf wm : R) (l : list entry) : forall ff mf en', In en' (fst (upd_cw_level (K:=Rnum) h n wf wm l ff mf)) -> exists en, In en l /\ snd en = snd en' /\ (fst en' = fst en \/ (0 <= fst en')%R).
Proof.
  induction l as [|e l IH]; intros ff mf en' Hi; cbn [upd_cw_level] in Hi; [destruct Hi|].
  assert (New : forall (w : R) x, x = (if (n0 <=? (w : Rnum))%num then (w, snd e) else e) -> snd e = snd x /\ (fst x = fst e \/ (0 <= fst x)%R)).
  { intros w x ->. destruct (n0 <=? (w : Rnum))%num eqn:E; [apply n0_le in E; cbn; auto|auto]. }
  assert (Tl : forall a b x r, x = (if (n0 <=? (a : Rnum))%num then (a, snd e) else e) \/ x = e -> (In b (x :: r)) -> (In b r -> exists en, In en l /\ snd en = snd b /\ (fst b = fst en \/ (0 <= fst b)%R)) ->
    exists en, In en (e :: l) /\ snd en = snd b /\ (fst b = fst en \/ (0 <= fst b)%R)).
  { intros a b x r Hx [<-|Hb] Hr; [|destruct (Hr Hb) as (en & I1 & I2); exists en; split; [right; exact I1|exact I2]].
    exists e. split; [left; reflexivity|]. destruct Hx as [Hx| ->]; [exact (New a x Hx)|auto]. }
  destruct (String.eqb (name_at h (snd e)) _).
  - destruct (mf || _); [cbn [fst] in Hi; apply (Tl wf en' _ l (or_introl eq_refl) Hi); intros H; exists en'; auto|].
    assert (J := fun b => IH true mf b). destruct (upd_cw_level h n wf wm l true mf) as [r o]. cbn [fst] in *. apply (Tl wf en' _ r (or_introl eq_refl) Hi). intros H. apply J, H.
  - destruct (String.eqb (name_at h (snd e)) _).
    + destruct ff; [cbn [fst] in Hi; apply (Tl wm en' _ l (or_introl eq_refl) Hi); intros H; exists en'; auto|].
      assert (J := fun b => IH false true b). destruct (upd_cw_level h n wf wm l false true) as [r o]. cbn [fst] in *. apply (Tl wm en' _ r (or_introl eq_refl) Hi). intros H. apply J, H.
    + assert (J := fun b => IH ff mf b). destruct (upd_cw_level h n wf wm l ff mf) as [r o]. cbn [fst] in *. apply (Tl wm en' _ r (or_intror eq_refl) Hi). intros H. apply J, H.
Qed.
Lemma cw_levels_entries h n (wf wm : R) (ls : list (list entry)) : forall ff mf i l' en', nth_error (fst (upd_cw_levels (K:=Rnum) h n wf wm ls ff mf)) i = Some l' -> In en' l' ->
  exists l en, nth_error ls i = Some l /\ In en l /\ snd en = snd en' /\ (fst en' = fst en \/ (0 <= fst en')%R).
Proof.
  induction ls as [|l ls IH]; intros ff mf i l' en' Hl Hi; cbn [upd_cw_levels] in Hl; [destruct i; discriminate Hl|].
  assert (J := cw_level_entries h n wf wm l ff mf en'). destruct (upd_cw_level h n wf wm l ff mf) as [r [[f' m']|u]]; cbn [fst] in *.
  - assert (JJ := fun i => IH f' m' i l' en'). destruct (upd_cw_levels h n wf wm ls f' m') as [rs bb]. cbn [fst] in *. destruct i; cbn [nth_error] in *; [injection Hl as <-; destruct (J Hi) as (en & I1); exists l, en; auto|apply JJ; assumption].
  - destruct i; cbn [nth_error] in *; [injection Hl as <-; destruct (J Hi) as (en & I1); exists l, en; auto|exists l', en'; auto].
Qed.

(** Additions. *)
Lemma info_app s s' ext a x : f_heap s' = f_heap s ++ ext -> info s a = Some x -> info s' a = Some x.
Proof.
  intros H E. assert (L := info_lt s a x E). rewrite <- E. unfold info, shapes. rewrite H, map_app, nth_error_app1 by (rewrite map_length; exact L). reflexivity.
Qed.
Lemma push_entries s s' ext lvl en0 : entries_ok s -> f_heap s' = f_heap s ++ ext -> push_level (f_hqp s) lvl en0 = Some (f_hqp s') -> entry_ok s' lvl en0 -> entries_ok s'.
Proof.
  intros E H P N i l en Hl Hi. unfold push_level in P. destruct (nth_error (f_hqp s) lvl) as [x|] eqn:Ex; [|discriminate P]. injection P as P. rewrite <- P in Hl.
  assert (Old : forall l0, nth_error (f_hqp s) i = Some l0 -> In en l0 -> entry_ok s' i en).
  { intros l0 H0 H1. destruct (E i l0 en H0 H1) as (n & kd & r & X & Y). exists n, kd, r. split; [eapply info_app; eassumption|exact Y]. }
  destruct (Nat.eq_dec i lvl) as [->|Hne].
  - rewrite nth_error_lupd_eq in Hl by (apply nth_error_Some; congruence). injection Hl as <-. apply in_app_or in Hi. destruct Hi as [Hi|[<-|[]]]; [exact (Old x Ex Hi)|exact N].
  - rewrite nth_error_lupd_neq in Hl by congruence. exact (Old l Hl Hi).
Qed.
Lemma new_info s' h n c a : f_heap s' = h ++ n :: c -> a = List.length h -> info s' a = Some (c_name n, c_kind n, mrows (c_mat n)).
Proof. intros H ->. unfold info, shapes. rewrite H, map_app, nth_error_app2 by (rewrite map_length; lia). rewrite map_length, Nat.sub_diag. reflexivity. Qed.
Lemma add_task_entries s n kd r (w : R) lvl s1 a : entries_ok s -> add_task_cstr (K:=Rnum) s n kd r w lvl = Some (s1, a) ->
  (forall x, n <> (x ++ "_motion_task")%string) -> (0 <= w)%R -> lvl = 0 \/ kd = CEq -> entries_ok s1.
Proof.
  intros E X Hn Hw Hl. apply add_task_stored in X. destruct X as (_ & x & Hx & -> & _).
  eapply (push_entries s _ [new_task_cstr n kd r (nVar s)] lvl (w, List.length (f_heap s)) E).
  - destruct (lvl =? 0); [destruct (is_eq kd)|]; reflexivity.
  - unfold push_level. rewrite Hx. reflexivity.
  - do 3 eexists. split; [eapply new_info; [destruct (lvl =? 0); [destruct (is_eq kd)|]; reflexivity|reflexivity]|].
    destruct lvl; [|destruct Hl as [Hl| ->]; [discriminate Hl|split; [exact Hw|reflexivity]]].
    intros y. replace (c_name (new_task_cstr n kd r (nVar s))) with n by (destruct kd; reflexivity). apply Hn.
Qed.
Lemma add_task_prios s n kd r (w : R) lvl s1 a : add_task_cstr (K:=Rnum) s n kd r w lvl = Some (s1, a) -> f_motions s1 = f_motions s /\ f_forces s1 = f_forces s.
Proof. intros X. apply add_task_stored in X. destruct X as (_ & x & _ & -> & _). destruct (lvl =? 0); [destruct (is_eq kd)|]; split; reflexivity. Qed.
Lemma add_contact_entries s o (wr wm : R) s' b : invA s -> entries_ok s -> add_contact (K:=Rnum) s o wr wm 1 = Ret s' b -> (0 <= wr)%R -> (0 <= wm)%R ->
  entries_ok s' /\ f_motions s' = f_motions s /\ f_forces s' = f_forces s.
Proof.
  intros HA E X Hr Hm. apply add_contact_spec in X. destruct X as (_ & x & s1 & q1 & q2 & q3 & _ & Rz & P1 & P2 & P3 & ->).
  assert (HP : preA (w_k s (f_k s + co_nforce x))) by (destruct (invA_preA _ HA); constructor; auto).
  destruct (resize_hqp_spec _ _ HP Rz) as [_ Es].
  assert (F : fewer s s1) by (eapply fewer_trans; [apply (fewer_eq s (w_k s (f_k s + co_nforce x))); reflexivity|exact (resize_fewer _ _ HP Rz)]).
  assert (Eq : f_motions s1 = f_motions s /\ f_forces s1 = f_forces s) by (rewrite Es; split; reflexivity).
  assert (E1 : entries_ok s1).
  { intros i l en Hl Hen. destruct F as (F1 & F2 & _). destruct (F1 i l Hl) as (l0 & Hl0 & Hi). destruct (E i l0 en Hl0 (Hi _ Hen)) as (n & kd & r & Y & Z). exists n, kd, r. rewrite F2. auto. }
  clear Es F. set (cm := new_eq (co_name x ++ "_motion_task") (co_mrows x) (nVar s1)) in *.
  set (cf := new_ineq (co_name x ++ "_force_constraint") (co_frows x) (nVar s1)) in *.
  set (cr := new_eq (co_name x ++ "_force_reg_task") (co_rrows x) (nVar s1)) in *.
  split; [|exact Eq].
  set (s2 := w_hqp (w_heap s1 (f_heap s1 ++ [cm])) q1).
  assert (E2 : entries_ok s2).
  { eapply (push_entries s1 s2 [cm] 1 _ E1 eq_refl P1). do 3 eexists. split; [eapply new_info; reflexivity|split; [exact Hm|reflexivity]]. }
  set (s3 := w_hqp (w_heap s2 (f_heap s2 ++ [cf])) q2).
  assert (E3 : entries_ok s3).
  { eapply (push_entries s2 s3 [cf] 0 _ E2 eq_refl P2). do 3 eexists. split; [eapply new_info; [reflexivity|cbn; rewrite app_length; cbn; lia]|]. intros y. cbn. intros Y. symmetry in Y. revert Y. apply sfx_mf. }
  set (s4 := w_hqp (w_heap s3 (f_heap s3 ++ [cr])) q3).
  assert (E4 : entries_ok s4).
  { eapply (push_entries s3 s4 [cr] 1 _ E3 eq_refl P3). do 3 eexists. split; [eapply new_info; [reflexivity|cbn; rewrite !app_length; cbn; lia]|split; [exact Hr|reflexivity]]. }
  intros i l en Hl Hen. destruct (E4 i l en Hl Hen) as (n & kd & r & Y & Z). exists n, kd, r. split; [|exact Z]. rewrite <- Y. unfold info, shapes. cbn [f_heap w_in w_eq w_contacts w_hqp w_heap s4 s3 s2]. rewrite <- !app_assoc. reflexivity.
Qed.

Lemma reweigh_ok s ls : entries_ok s -> (forall i l' en', nth_error ls i = Some l' -> In en' l' -> exists l en, nth_error (f_hqp s) i = Some l /\ In en l /\ snd en = snd en' /\ (fst en' = fst en \/ (0 <= fst en')%R)) -> entries_ok (w_hqp s ls).
Proof.
  intros E H i l' en' Hl Hi. destruct (H i l' en' Hl Hi) as (l & en & H1 & H2 & H3 & H4). destruct (E i l en H1 H2) as (n & kd & r & Y & Z). exists n, kd, r. split; [rewrite <- H3; exact Y|].
  destruct i; [exact Z|]. destruct Z as [Z1 Z2]. split; [|exact Z2]. destruct H4 as [->|H4]; assumption.
Qed.

Lemma soft_step s o s' : inv_soft s -> names_ok s o -> soft_call o -> after (step s o) = Some s' -> inv_soft s'.
Proof.
  intros (HA & HB & HE & HP) HN HS Ha. split; [eapply invA_step; eassumption|]. split; [eapply invB_step; eassumption|].
  destruct o; cbn [step Formulation.step] in Ha; try rewrite lift_after in Ha.
  - cbn in Ha. injection Ha as <-. apply (fewer_ok s); [apply fewer_eq; reflexivity|exact HE|exact HP].
  - unfold obj_set_fmin in Ha. destruct (cobj_at s o); [|discriminate Ha]. destruct (_ || _); cbn in Ha; injection Ha as <-; (apply (fewer_ok s); [apply fewer_eq; reflexivity|exact HE|exact HP]).
  - unfold obj_set_fmax in Ha. destruct (cobj_at s o); [|discriminate Ha]. destruct (_ || _); cbn in Ha; injection Ha as <-; (apply (fewer_ok s); [apply fewer_eq; reflexivity|exact HE|exact HP]).
  - unfold add_motion in Ha. destruct (args_ok w dur) eqn:Ea; [|cbn in Ha; injection Ha as <-; split; assumption].
    destruct (add_task_cstr _ _ _ _ _ _) as [[s1 a]|] eqn:E; [|discriminate Ha]. cbn in Ha; injection Ha as <-. cbn in HS, HN. destruct HS as [-> ->]. destruct HN as [HN _].
    unfold args_ok in Ea. apply andb_true_iff in Ea. destruct Ea as [Ea _]. apply n0_le in Ea. destruct (add_task_prios _ _ _ _ _ _ _ _ E) as [F1 F2]. split.
    + refine (add_task_entries s name CEq rows w 1 s1 a HE E _ Ea (or_intror eq_refl)). intros x ->. apply HN, res_m.
    + intros t Ht. cbn [f_motions f_forces w_motions] in Ht. rewrite F1, F2 in Ht. rewrite <- app_assoc in Ht. apply in_app_or in Ht. destruct Ht as [Ht|[<-|Ht]]; [apply HP, in_or_app; auto|reflexivity|apply HP, in_or_app; auto].
  - unfold add_force in Ha. destruct (args_ok w dur) eqn:Ea; [|cbn in Ha; injection Ha as <-; split; assumption].
    destruct (add_task_cstr _ _ _ _ _ _) as [[s1 a]|] eqn:E; [|discriminate Ha]. cbn in Ha; injection Ha as <-. cbn in HS, HN. destruct HS as [-> ->]. destruct HN as [HN _].
    unfold args_ok in Ea. apply andb_true_iff in Ea. destruct Ea as [Ea _]. apply n0_le in Ea. destruct (add_task_prios _ _ _ _ _ _ _ _ E) as [F1 F2]. split.
    + refine (add_task_entries s name CEq rows w 1 s1 a HE E _ Ea (or_intror eq_refl)). intros x ->. apply HN, res_m.
    + intros t Ht. cbn [f_motions f_forces w_forces] in Ht. rewrite F1, F2 in Ht. rewrite app_assoc in Ht. apply in_app_or in Ht. destruct Ht as [Ht|[<-|[]]]; [apply HP, Ht|reflexivity].
  - unfold add_act in Ha. destruct (args_ok w dur) eqn:Ea; [|cbn in Ha; injection Ha as <-; split; assumption].
    destruct (add_task_cstr _ _ _ _ _ _) as [[s1 a]|] eqn:E; [|discriminate Ha]. cbn in Ha; injection Ha as <-. cbn in HS, HN. destruct HN as [HN _].
    unfold args_ok in Ea. apply andb_true_iff in Ea. destruct Ea as [Ea _]. apply n0_le in Ea. destruct (add_task_prios _ _ _ _ _ _ _ _ E) as [F1 F2]. split.
    + refine (add_task_entries s name kd rows w lvl s1 a HE E _ Ea HS). intros x ->. apply HN, res_m.
    + intros t Ht. cbn [f_motions f_forces w_acts] in Ht. rewrite F1, F2 in Ht. apply HP, Ht.
  - unfold upd_task_weight in Ha. destruct (f_hqp s) as [|l0 ls] eqn:Eh; [cbn in Ha; injection Ha as <-; split; assumption|].
    destruct (upd_weight_levels _ _ _ _) as [ls'|] eqn:E; cbn in Ha; injection Ha as <-; [|split; assumption]. split; [|exact HP].
    apply reweigh_ok; [exact HE|]. intros i l' en' Hl Hi. rewrite Eh. destruct i; cbn [nth_error] in *; [injection Hl as <-; exists l0, en'; auto|].
    destruct (upd_levels_entries _ _ _ _ _ _ _ _ E Hl Hi) as (l & en & X1 & X2 & X3 & X4). exists l, en. repeat (split; [assumption|]). destruct X4 as [X4|X4]; [left; exact X4|right; rewrite X4; exact HS].
  - destruct (add_contact s o wreg wmot lvl) as [s1 b1|s1|] eqn:E; [| |discriminate Ha].
    + cbn in Ha; injection Ha as <-. cbn in HS. destruct HS as (-> & S1 & S2). destruct (add_contact_entries _ _ _ _ _ _ HA HE E S1 S2) as (X1 & X2 & X3). split; [exact X1|]. unfold prios_ok. rewrite X2, X3. exact HP.
    + exfalso. exact (add_contact_no_exc s o wreg wmot lvl s1 E).
  - unfold upd_contact_weights in Ha. destruct (f_hqp s) as [|l0 ls] eqn:Eh; [cbn in Ha; injection Ha as <-; split; assumption|].
    assert (X := cw_levels_entries (f_heap s) name wf wm ls false false). destruct (upd_cw_levels _ _ _ _ _ _ _) as [ls' b] eqn:E; cbn in Ha; injection Ha as <-. split; [|exact HP].
    apply reweigh_ok; [exact HE|]. intros i l' en' Hl Hi. rewrite Eh. destruct i; cbn [nth_error] in *; [injection Hl as <-; exists l0, en'; auto|exact (X i l' en' Hl Hi)].
  - cbn in Ha; injection Ha as <-. apply (fewer_ok s); [apply fewer_eq; reflexivity|exact HE|exact HP].
  - rewrite <- lift_after with (f := OutBool) in Ha. apply remove_task_fewer in Ha. exact (fewer_ok s s' Ha HE HP).
  - unfold remove_contact in Ha. destruct ((n0 <? dur)%num).
    + destruct (find_contact s name); [|cbn in Ha; injection Ha as <-; split; assumption].
      destruct (cobj_at s _); [|discriminate Ha]. cbn in Ha; injection Ha as <-. apply (fewer_ok s); [apply fewer_eq; reflexivity|exact HE|exact HP].
    + destruct (remove_contact_now dbg s name) as [s1 b1|s1|] eqn:E; [| |discriminate Ha].
      * cbn in Ha; injection Ha as <-. exact (fewer_ok s s1 (remove_now_fewer _ _ _ _ HA E) HE HP).
      * exfalso. eapply remove_now_exc; exact E.
  - unfold remove_meas in Ha. destruct (take_meas name (f_meas s)); cbn in Ha; injection Ha as <-; (apply (fewer_ok s); [apply fewer_eq; reflexivity|exact HE|exact HP]).
  - unfold compute in Ha. change (f_trans (w_t s t)) with (f_trans s) in Ha.
    assert (T : forall s1, after (run_transitions dbg (w_t s t) [] (f_trans s)) = Some s1 -> inv_soft s1).
    { intros s1 E. eapply (run_transitions_inv dbg inv_soft); [| | | |reflexivity|exact E].
      - intros q q' Sm (X1 & X2 & X3 & X4). split; [eapply invA_same; eassumption|]. split; [eapply invB_same; eassumption|]. exact (fewer_ok _ _ (fewer_same _ _ Sm) X3 X4).
      - intros q l (X1 & X2 & X3 & X4). split; [apply invA_trans, X1|]. split; [eapply invB_sameB; [|exact X2]; repeat split|]. apply (fewer_ok q); [apply fewer_eq; reflexivity|exact X3|exact X4].
      - intros q n q' b (X1 & X2 & X3 & X4) Hr. split; [eapply invA_remove_contact_now; eassumption|]. split; [eapply invB_remove_contact_now; eassumption|]. exact (fewer_ok _ _ (remove_now_fewer _ _ _ _ X1 Hr) X3 X4).
      - split; [destruct HA; constructor; auto|]. split; [eapply invB_sameB; [|exact HB]; repeat split|]. apply (fewer_ok s); [apply fewer_eq; reflexivity|exact HE|exact HP]. }
    destruct (run_transitions dbg (w_t s t) [] (f_trans s)) as [s1 u|s1|] eqn:E; [| |discriminate Ha].
    + destruct (comp_fill s1 e) as [s2|] eqn:C; [|discriminate Ha]. cbn in Ha; injection Ha as <-. destruct (T s1 eq_refl) as (_ & _ & X3 & X4). exact (fewer_ok _ _ (fewer_same _ _ (comp_fill_same _ _ _ C)) X3 X4).
    + cbn in Ha; injection Ha as <-. apply (T s1 eq_refl).
  - unfold get in Ha. destruct (decode s x) as [s1|] eqn:E; [|discriminate Ha].
    assert (F := fewer_ok _ _ (fewer_same _ _ (decode_same _ _ _ E)) HE HP).
    destruct g; cbn in Ha; try (injection Ha as <-; exact F).
    destruct (find_contact s1 name) as [cl|]; [destruct (vsegment _ _ _)|]; cbn in Ha; try discriminate Ha; injection Ha as <-; exact F.
Qed.

Lemma inv_soft_init nv na (M0 : mat Rnum) H0 : inv_soft (init nv na M0 H0).
Proof.
  split; [apply invA_init|]. split; [apply invB_init|]. split; [|intros t []].
  intros i l en Hl Hi. destruct i as [|[|i]]; cbn in Hl.
  - injection Hl as <-. destruct Hi as [<-|[]]. do 3 eexists. split; [reflexivity|]. intros x X. symmetry in X. revert X. apply sfx_mb.
  - injection Hl as <-. destruct Hi.
  - destruct i; discriminate Hl.
Qed.
Theorem soft_reach nv na (M0 : mat Rnum) H0 asc s : reach step (soft_use dbg asc) (init nv na M0 H0) s -> inv_soft s.
Proof.
  apply (reach_inv step (soft_use dbg asc) inv_soft); [apply inv_soft_init|]. intros q o q' Hq [[[Hn _] _] Hs] Ha. exact (soft_step q o q' Hq Hn Hs Ha).
Qed.

(** What the invariant says of the computed problem. *)
Lemma inv_soft_facts s : inv_soft s -> (forall c, ~ hard_motion s c) /\ (forall t, In t (f_motions s ++ f_forces s) -> tl_prio t <> 0) /\
  (forall en c, In en (nth 1 (hqp s) []) -> snd en = Some c -> c_kind c = CEq) /\ weights_ok s.
Proof.
  intros (_ & _ & HE & HP).
  assert (At : forall i en, In en (nth i (hqp s) []) -> exists l en0, nth_error (f_hqp s) i = Some l /\ In en0 l /\ en = deref s en0).
  { intros i en Hi. unfold hqp in Hi. destruct (nth_error (f_hqp s) i) as [l|] eqn:El.
    - rewrite (nth_error_nth (map (map (deref s)) (f_hqp s)) i [] (x := map (deref s) l)) in Hi by (rewrite nth_error_map, El; reflexivity).
      apply in_map_iff in Hi. destruct Hi as (en0 & <- & H0). exists l, en0. auto.
    - rewrite nth_overflow in Hi by (rewrite map_length; apply nth_error_None; exact El). destruct Hi. }
  split; [|split; [|split]].
  - intros c (en & Hi & Hn). destruct (At 0 en Hi) as (l & en0 & Hl & H0 & ->). destruct (HE 0 l en0 Hl H0) as (n & kd & r & X & Y).
    unfold entry_name, deref in Hn. cbn [snd] in Hn. unfold info, shapes in X. rewrite nth_error_map in X. destruct (nth_error (f_heap s) (snd en0)) as [cc|]; [|discriminate X].
    cbn in X, Hn. injection X as X1 _ _. injection Hn as Hn. apply (Y (cl_name s c)). congruence.
  - intros t Ht. rewrite (HP t Ht). discriminate.
  - intros en c Hi Hc. destruct (At 1 en Hi) as (l & en0 & Hl & H0 & ->). destruct (HE 1 l en0 Hl H0) as (n & kd & r & X & _ & ->).
    unfold deref in Hc. cbn [snd] in Hc. unfold info, shapes in X. rewrite nth_error_map, Hc in X. cbn in X. injection X as _ X _. exact X.
  - intros en Hi. destruct (At 1 en Hi) as (l & en0 & Hl & H0 & ->). destruct (HE 1 l en0 Hl H0) as (n & kd & r & X & Y & _). exact Y.
Qed.
Lemma soft_assoc asc s0 s : reach step (soft_use dbg asc) s0 s -> reach step (assoc_good dbg asc) s0 s.
Proof. induction 1 as [|s1 o s2 Hr IH [H1 H2] Ha]; [constructor|]. eapply reach_step; [exact IH|exact H1|exact Ha]. Qed.

(** The theorem: soft calls, a positive definite mass matrix, forces that each contact admits and
    torques the hard actuation tasks admit. *)
Lemma soft_sized nv na (M0 : mat Rnum) H0 asc s t e s' tau : FormMain.robot_ok nv M0 H0 -> reach step (soft_use dbg asc) (init nv na M0 H0) s ->
  assoc_good dbg asc s (OCompute t e) -> step s (OCompute t e) = Ret s' OutUnit ->
  RobotModelR.posdef nv (mget (e_mass e)) -> forces_exist s' e -> torque_exists s' e tau ->
  (exists z, physical s' e z /\ forall q, q < nv - f_nu s' -> needed_torque s' e z (f_nu s' + q) = tau q) /\ exists y, vlen y = nVar s' /\ planned dbg nv na M0 H0 asc e s' reg8 y.
Proof.
  intros R0 Hr Ho Hs PD FE TE.
  assert (I1 : inv_soft s').
  { apply (soft_reach nv na M0 H0 asc). eapply reach_step; [exact Hr|split; [exact Ho|exact I]|rewrite Hs; reflexivity]. }
  destruct (inv_soft_facts s' I1) as (F1 & F2 & F3 & F4). apply soft_assoc in Hr.
  destruct (physical_exists dbg nv na M0 H0 asc s t e s' R0 Hr Ho Hs tau (fun c _ => F1 c) F2 PD FE TE) as (z & Hz & Ht).
  split; [exists z; auto|]. exact (plan_sized dbg nv na M0 H0 asc s t e s' R0 Hr Ho Hs F3 F4 (ex_intro _ z Hz)).
Qed.
Theorem soft_possible nv na (M0 : mat Rnum) H0 asc s t e s' tau : FormMain.robot_ok nv M0 H0 -> reach step (soft_use dbg asc) (init nv na M0 H0) s ->
  assoc_good dbg asc s (OCompute t e) -> step s (OCompute t e) = Ret s' OutUnit ->
  RobotModelR.posdef nv (mget (e_mass e)) -> forces_exist s' e -> torque_exists s' e tau ->
  (exists z, physical s' e z /\ forall q, q < nv - f_nu s' -> needed_torque s' e z (f_nu s' + q) = tau q) /\ exists y, planned dbg nv na M0 H0 asc e s' reg8 y.
Proof. intros R0 Hr Ho Hs PD FE TE. destruct (soft_sized nv na M0 H0 asc s t e s' tau R0 Hr Ho Hs PD FE TE) as (Z & y & _ & P). split; [exact Z|exists y; exact P]. Qed.
End Calls.
