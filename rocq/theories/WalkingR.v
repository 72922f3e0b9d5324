(** Where the biped and the walking loop go wrong: feet added twice. *)
From Coq Require Import String List Arith Bool ZArith Lia Permutation.
From Verif Require Import Scalar Outcome Linalg Constraint Formulation ListUtil FormSpec FormInv FormInvB FormInvC FormOps FormSafe FormSafe2 FormContact FormMain FormCheck Walking WalkingSpec WalkingP WalkingQ.
Import ListNotations.
Open Scope string_scope.
Open Scope list_scope.
Open Scope nat_scope.

Section WalkingR.
Context {K : num}.
Variable dbg : bool.
Local Notation fstate := (fstate K).
Local Notation step := (@Formulation.step K dbg).
Variables (C : conf K) (nv na : nat) (M0 : mat K) (H0 : vec K) (x y : cobj K).
Hypothesis Hrob : robot_ok nv M0 H0.
Hypothesis Hx : is_six x "contact_rfoot".
Hypothesis Hy : is_six y "contact_lfoot".
Local Notation desc := (desc dbg nv na M0 H0).
Local Notation fit := (fit dbg (fun _ => True) C nv na M0 H0 x y).

Lemma priority_in h (n : string) (ls : list (list (K * nat))) p : task_priority h n ls = Some p ->
  In n (map (fun e => name_at h (snd e)) (concat ls)).
Proof.
  revert p. induction ls as [|l ls IH]; intros p; cbn; [discriminate|]. rewrite map_app, in_app_iff.
  destruct (level_has h n l) eqn:L; intros H.
  - left. unfold level_has in L. apply existsb_exists in L. destruct L as (e & He & E). apply String.eqb_eq in E.
    apply in_map_iff. exists e. auto.
  - destruct (task_priority h n ls) as [q|]; [|discriminate]. right. exact (IH q eq_refl).
Qed.

(** Adding a foot that is present. *)
Lemma again (s : fstate) (f : bool) : invA s -> Forall sized (f_heap s) -> f_objs s = [x; y] -> List.length (f_hqp s) = 2 ->
  exists s' r, step s (add_foot C (if f then 0 else 1)) = Ret s' r /\ f_objs s' = [x; y] /\
    contact_names s' = contact_names s ++ [if f then "contact_rfoot" else "contact_lfoot"] /\
    nVar s' = nVar s + 12 /\
    (forall m, In m (hqp_names s') -> In m (hqp_names s) \/
       m = ((if f then "contact_rfoot" else "contact_lfoot") ++ "_motion_task")%string \/
       m = ((if f then "contact_rfoot" else "contact_lfoot") ++ "_force_constraint")%string \/
       m = ((if f then "contact_rfoot" else "contact_lfoot") ++ "_force_reg_task")%string).
Proof.
  intros HA HC Ho L2.
  assert (Q : exists q0 q1, items s = [q0; q1]).
  { unfold items. destruct (f_hqp s) as [|a [|b [|c l]]]; try discriminate. eexists _, _. reflexivity. }
  destruct Q as (q0 & q1 & Q).
  assert (Ex : exists o z, o = (if f then 0 else 1) /\ nth_error (f_objs s) o = Some z /\ is_six z (if f then "contact_rfoot" else "contact_lfoot")).
  { rewrite Ho. destruct f; eexists _, _; (split; [reflexivity|]); split; try reflexivity; assumption. }
  destruct Ex as (o & z & Eo & Ez & Sz & S2 & _). rewrite <- Eo.
  set (n := if f then "contact_rfoot" else "contact_lfoot") in *.
  assert (Main : forall wr wm lvl, lvl < 2 -> exists s', add_contact s o wr wm lvl = Ret s' true /\ f_objs s' = [x; y] /\
    contact_names s' = contact_names s ++ [n] /\ nVar s' = nVar s + 12 /\
    (forall m, In m (hqp_names s') -> In m (hqp_names s) \/ m = (n ++ "_motion_task")%string \/
       m = (n ++ "_force_constraint")%string \/ m = (n ++ "_force_reg_task")%string)).
  { intros wr wm lvl Hl. destruct (add_contact_total s o wr wm lvl z HA HC Ez) as (s' & E & _); [lia|].
    destruct (add_contact_items s o z wr wm lvl s' true q0 q1 HA Q Ez E) as (_ & I1 & I2 & I3 & _).
    assert (A' : invA s').
    { eapply (invA_step dbg); [exact HA|]. instantiate (1 := OAddContact o wr wm lvl). cbn [Formulation.step]. rewrite E. reflexivity. }
    exists s'. split; [exact E|]. split; [congruence|]. split; [|split].
    - rewrite !names_objs, I2, I3, map_app. cbn [map]. unfold oname at 2. rewrite Ez, Sz. reflexivity.
    - destruct (add_contact_spec _ _ _ _ _ _ _ E) as (_ & z' & s1 & a1 & a2 & a3 & Ez' & Hr & P).
      rewrite Ez in Ez'. injection Ez' as <-. cbv zeta in P. destruct P as (_ & _ & _ & ->).
      assert (HP : preA (w_k s (f_k s + co_nforce z))) by (destruct (invA_preA _ HA); constructor; auto).
      destruct (resize_dims _ _ Hr) as (D1 & _). assert (Ek : f_k s1 = f_k s + 12).
      { unfold resize_hqp in Hr. repeat (ob Hr). injection Hr as <-. cbn. rewrite S2. reflexivity. }
      unfold nVar. cbn. rewrite Ek. cbn in D1. rewrite D1. lia.
    - intros m. rewrite (names_items s' (invA_valid _ A')), (names_items s (invA_valid _ HA)), I1, Q, Sz.
      cbn [concat]. rewrite !app_nil_r. destruct (lvl =? 0); rewrite !map_app, !in_app_iff; cbn; intuition auto. }
  unfold add_foot. destruct ((n0 <=? w_contact C)%num); cbn [Formulation.step].
  - destruct (Main (w_forceRef C) (w_contact C) 1) as (s' & E & M1 & M2 & M3 & M4); [lia|]. rewrite E.
    exists s', (OutBool true). auto 10.
  - destruct (Main (w_forceRef C) n1 0) as (s' & E & M1 & M2 & M3 & M4); [lia|]. rewrite E.
    exists s', (OutBool true). auto 10.
Qed.

Lemma fit_parts b : fit b -> invA (b_f b) /\ invB (b_f b) /\ Forall sized (f_heap (b_f b)) /\ f_objs (b_f b) = [x; y] /\
  List.length (f_hqp (b_f b)) = 2 /\ Permutation (contact_names (b_f b)) (feet (b_rf b) (b_lf b)).
Proof.
  intros F. assert (St := up_stands dbg (fun _ => True) C nv na M0 H0 x y Hrob Hx Hy _ _ _ F).
  destruct F as (cs & q0 & q1 & D & _). destruct (desc_inv dbg _ nv na M0 H0 Hrob _ _ _ _ _ D) as (HA & HB & HS & _).
  split; [exact HA|]. split; [exact HB|]. split; [exact (is_cells _ HS)|].
  split; [apply (d_objs _ _ _ _ _ _ _ _ _ _ _ D)|]. split; [exact (hqp_two dbg _ nv na M0 H0 _ _ _ _ _ D)|apply St].
Qed.

Lemma lf_absent b : fit b -> b_lf b = false -> ~ In "contact_lfoot_motion_task" (hqp_names (b_f b)).
Proof.
  intros F Hl. destruct b as [s rf lf]. cbn in Hl. subst lf. destruct F as (cs & q0 & q1 & D & _ & P0 & P1). cbn [b_f b_rf b_lf] in *.
  destruct (desc_inv dbg _ nv na M0 H0 Hrob _ _ _ _ _ D) as (HA & _).
  rewrite (names_items s (invA_valid _ HA)), (d_items _ _ _ _ _ _ _ _ _ _ _ D). cbn [concat]. rewrite app_nil_r.
  intros I. rewrite map_app, in_app_iff in I.
  destruct I as [I|I]; [apply (Permutation_in _ (Permutation_map iname P0)) in I|apply (Permutation_in _ (Permutation_map iname P1)) in I]; revert I.
  - apply inb_ok. unfold hard, foot_hard, feet.
    destruct rf, ((n0 <=? w_contact C)%num), ((n0 <? w_torque_bounds C)%num), ((n0 <? w_joint_bounds C)%num); reflexivity.
  - apply inb_ok. unfold soft, foot_soft, feet. destruct rf, ((n0 <=? w_contact C)%num); reflexivity.
Qed.

(** add_contact_RF on a standing right foot enters it a second time; removing the absent
    left foot then fails an assertion. *)
Lemma added_twice b T : fit b -> b_rf b = true ->
  exists b' r, bstep dbg C b (AddRF T) = Ret b' r /\ b_rf b' = true /\ b_lf b' = b_lf b /\
    Permutation (contact_names (b_f b')) ("contact_rfoot" :: feet true (b_lf b)) /\
    nVar (b_f b') = nVar (b_f b) + 12 /\
    (b_lf b = false -> dbg = true -> forall T', (n0 <? T')%num = false -> bstep dbg C b' (RemoveLF T') = Undef).
Proof.
  intros F Hr. destruct (fit_parts b F) as (HA & HB & HC & Ho & L2 & Pn).
  destruct (again (b_f b) true HA HC Ho L2) as (s' & r & E & O' & N' & V' & M').
  cbn [bstep]. rewrite E. cbn [onb]. eexists _, r. split; [reflexivity|]. cbn [b_rf b_lf b_f fst snd].
  split; [reflexivity|]. split; [reflexivity|]. split; [|split; [exact V'|]].
  - rewrite N', <- Hr. rewrite Permutation_app_comm. cbn [app]. constructor. exact Pn.
  - intros Hl Hd T' HT. assert (Ab := lf_absent b F Hl).
    cbn [bstep b_f]. cbn [Formulation.step]. unfold remove_contact. rewrite HT. unfold remove_contact_now.
    destruct (task_priority (f_heap s') ("contact_lfoot" ++ "_motion_task") (f_hqp s')) as [p|] eqn:Ep.
    + exfalso. apply priority_in in Ep. fold (hqp_names s') in Ep.
      destruct (M' _ Ep) as [I|[I|[I|I]]]; [exact (Ab I)|discriminate..].
    + unfold assert_. rewrite Hd. reflexivity.
Qed.

(** remove_contact_RF with a transition time lowers the flag although the contact stays;
    adding the foot when the flag is down enters it a second time. *)
Lemma removed_later b T T' : fit b -> b_rf b = true -> (n0 <? T)%num = true ->
  exists b1 r1, bstep dbg C b (RemoveRF T) = Ret b1 r1 /\ b_rf b1 = false /\
    contact_names (b_f b1) = contact_names (b_f b) /\ nVar (b_f b1) = nVar (b_f b) /\
    ~ stands C nv na (b_rf b1) (b_lf b1) (b_f b1) /\
    flag_rule b1 (AddRF T') /\
    exists b2 r2, bstep dbg C b1 (AddRF T') = Ret b2 r2 /\
      Permutation (contact_names (b_f b2)) ("contact_rfoot" :: feet true (b_lf b)).
Proof.
  intros F Hr HT. destruct (fit_parts b F) as (HA & HB & HC & Ho & L2 & Pn). rewrite Hr in Pn.
  assert (Hin : In "contact_rfoot" (contact_names (b_f b))) by (eapply Permutation_in; [symmetry; exact Pn|left; reflexivity]).
  assert (T1 : exists tr, step (b_f b) (ORemContact "contact_rfoot" T) = Ret (w_trans (b_f b) (f_trans (b_f b) ++ [tr])) (OutBool true)).
  { cbn [Formulation.step]. unfold remove_contact. rewrite HT. unfold find_contact.
    assert (Tk := take_contact_names (b_f b) "contact_rfoot" HA HB).
    destruct (take_contact (b_f b) "contact_rfoot" (f_contacts (b_f b))) as [[c l]|]; [|destruct Tk as (_ & Nn); contradiction].
    destruct Tk as (_ & Hc & _). assert (Lo := ia_objs _ HA). rewrite Forall_forall in Lo. specialize (Lo c Hc).
    unfold cobj_at. destruct (nth_error (f_objs (b_f b)) (cl_obj c)) as [z|] eqn:Ez; [|apply nth_error_None in Ez; lia].
    eexists. reflexivity. }
  destruct T1 as (tr & E1). set (s1 := w_trans (b_f b) (f_trans (b_f b) ++ [tr])) in *.
  assert (A1 : invA s1) by (destruct HA; constructor; auto).
  destruct (again s1 true A1 HC Ho L2) as (s2 & r2 & E2 & O2 & N2 & V2 & M2).
  exists (mkBiped s1 false (b_lf b)), (OutBool true). cbn [bstep]. rewrite E1. split; [reflexivity|].
  cbn [b_f b_rf b_lf]. split; [reflexivity|]. split; [reflexivity|]. split; [reflexivity|]. split; [|split; [reflexivity|]].
  - intros (Pc & _). change (contact_names s1) with (contact_names (b_f b)) in Pc.
    apply (Permutation_in _ Pc) in Hin. unfold feet in Hin. destruct (b_lf b); cbn in Hin; intuition discriminate.
  - rewrite E2. eexists (mkBiped s2 true (b_lf b)), r2. split; [reflexivity|]. cbn [b_f]. rewrite N2.
    change (contact_names s1) with (contact_names (b_f b)). rewrite Permutation_app_comm. cbn [app]. constructor. exact Pn.
Qed.

(** ** Histories *)
Definition ruled (b : biped K) (o : bop K) : Prop := data_rule b o /\ flag_rule b o.
Lemma fit_reach b0 b : fit b0 -> reach (bstep dbg C) ruled b0 b -> fit b.
Proof.
  intros F0. apply (reach_inv (bstep dbg C) ruled fit); [exact F0|]. intros z o z' F (Hd & Hf) E.
  destruct (fit_step dbg (fun _ => True) C nv na M0 H0 x y Hrob Hx Hy z o F Hd Hf (match o with Compute _ _ => I | _ => I end)) as (w & r & Ew & Fw). rewrite Ew in E. injection E as <-. exact Fw.
Qed.
Lemma always_stands (e0 e1 : env K) b0 b : conf_ok C -> sizes_ok nv e0 -> sizes_ok nv e1 ->
  biped_new dbg C nv na M0 H0 x y e0 e1 = Some b0 -> reach (bstep dbg C) ruled b0 b ->
  stands C nv na (b_rf b) (b_lf b) (b_f b) /\
  (forall o, ruled b o -> exists b' r, bstep dbg C b o = Ret b' r).
Proof.
  intros Hc S0 S1 E R. destruct (start_ok dbg (fun _ => True) C nv na M0 H0 x y Hrob Hx Hy e0 e1 Hc S0 S1 I I) as (z & Ez & _ & _ & F).
  rewrite E in Ez. injection Ez as <-. assert (Fb := fit_reach _ _ F R). split.
  - apply (up_stands dbg (fun _ => True) C nv na M0 H0 x y Hrob Hx Hy). exact Fb.
  - intros o (Hd & Hf). destruct (fit_step dbg (fun _ => True) C nv na M0 H0 x y Hrob Hx Hy b o Fb Hd Hf (match o with Compute _ _ => I | _ => I end)) as (w & r & Ew & _). eauto.
Qed.
Lemma twice (e0 e1 : env K) b0 b T : conf_ok C -> sizes_ok nv e0 -> sizes_ok nv e1 ->
  biped_new dbg C nv na M0 H0 x y e0 e1 = Some b0 -> reach (bstep dbg C) ruled b0 b -> b_rf b = true ->
  exists b' r, bstep dbg C b (AddRF T) = Ret b' r /\ b_rf b' = true /\ b_lf b' = b_lf b /\
    Permutation (contact_names (b_f b')) ("contact_rfoot" :: feet true (b_lf b)) /\ nVar (b_f b') = nVar (b_f b) + 12.
Proof.
  intros Hc S0 S1 E R Hr. destruct (start_ok dbg (fun _ => True) C nv na M0 H0 x y Hrob Hx Hy e0 e1 Hc S0 S1 I I) as (z & Ez & _ & _ & F).
  rewrite E in Ez. injection Ez as <-.
  destruct (added_twice b T (fit_reach _ _ F R) Hr) as (b' & r & A & B & D & G & H & _). exists b', r. auto.
Qed.
Lemma later (e0 e1 : env K) b0 b T T' : conf_ok C -> sizes_ok nv e0 -> sizes_ok nv e1 ->
  biped_new dbg C nv na M0 H0 x y e0 e1 = Some b0 -> reach (bstep dbg C) ruled b0 b -> b_rf b = true -> (n0 <? T)%num = true ->
  exists b1 r1, bstep dbg C b (RemoveRF T) = Ret b1 r1 /\ b_rf b1 = false /\
    contact_names (b_f b1) = contact_names (b_f b) /\ nVar (b_f b1) = nVar (b_f b) /\
    ~ stands C nv na (b_rf b1) (b_lf b1) (b_f b1) /\
    flag_rule b1 (AddRF T') /\
    exists b2 r2, bstep dbg C b1 (AddRF T') = Ret b2 r2 /\
      Permutation (contact_names (b_f b2)) ("contact_rfoot" :: feet true (b_lf b)).
Proof.
  intros Hc S0 S1 E R Hr HT. destruct (start_ok dbg (fun _ => True) C nv na M0 H0 x y Hrob Hx Hy e0 e1 Hc S0 S1 I I) as (z & Ez & _ & _ & F).
  rewrite E in Ez. injection Ez as <-. apply removed_later; auto. exact (fit_reach _ _ F R).
Qed.

(** ** A walk whose first phase is on the left foot *)
Lemma left_first (e0 e1 : env K) b0 N ph t (e : env K) g b1 : ((n0 : K) <? n0)%num = false ->
  conf_ok C -> sizes_ok nv e0 -> sizes_ok nv e1 -> biped_new dbg C nv na M0 H0 x y e0 e1 = Some b0 ->
  3 <= N -> ph 0 = PLeft -> ph 1 = PRight -> served dbg C b0 (iteration N ph 0 t e g) b1 ->
  (b_rf b1 = true /\ b_lf b1 = false) /\
  @switch K N ph 1 = [AddRF n0; RemoveLF n0] /\
  exists b2 r, bstep dbg C b1 (AddRF n0) = Ret b2 r /\
    Permutation (contact_names (b_f b2)) ["contact_rfoot"; "contact_rfoot"] /\
    (dbg = true -> bstep dbg C b2 (RemoveLF n0) = Undef).
Proof.
  intros Hz Hc S0 S1 E HN P0 P1 Sv. destruct (start_ok dbg (fun _ => True) C nv na M0 H0 x y Hrob Hx Hy e0 e1 Hc S0 S1 I I) as (z & Ez & F1 & F2 & F).
  rewrite E in Ez. injection Ez as <-.
  assert (Sm : smooth dbg C b0 (iteration N ph 0 t e g) (on dbg C nv na M0 H0 x y (true, false))).
  { unfold iteration, switch. cbn [Z.eqb]. apply smooth_app.
    eapply smooth_weaken; [|apply (smooth_one dbg C nv na M0 H0 x y Hrob Hx Hy); [exact F|split; [exact F2|exact Hz]]].
    intros z (Fz & Ez). apply (neutral_smooth dbg C nv na M0 H0 x y Hrob Hx Hy).
    - constructor; [intros w; split; [exact I|reflexivity]|]. apply Forall_forall. intros o Ho. apply in_map_iff in Ho.
      destruct Ho as (p & <- & _). intros w. split; [exact I|reflexivity].
    - split; [exact Fz|]. rewrite Ez. unfold flags. rewrite F1. reflexivity. }
  destruct (smooth_end dbg C _ _ _ _ Sm Sv) as (Fb & Eb). unfold flags in Eb. injection Eb as Er El.
  split; [split; assumption|]. split.
  - unfold switch. change (1 =? 0)%Z with false. replace ((0 <? 1) && (1 <? Z.of_nat N - 1))%Z with true.
    { change (Z.to_nat 1) with 1. change (1 - 1) with 0. cbv zeta. rewrite P0, P1. reflexivity. }
    symmetry. apply andb_true_intro. split; [reflexivity|apply Z.ltb_lt; lia].
  - destruct (added_twice b1 n0 Fb Er) as (b2 & r & A & B & D & G & H & U). exists b2, r. split; [exact A|].
    rewrite El in G. split; [exact G|]. intros Hd. apply U; auto.
Qed.
End WalkingR.
