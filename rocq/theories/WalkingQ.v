(** The biped stands on the feet its flags announce; the walking loop. *)
From Coq Require Import String List Arith Bool ZArith Lia Permutation.
From Verif Require Import Scalar Outcome Linalg Constraint Formulation ListUtil FormSpec FormInv FormInvB FormInvC FormOps FormSafe FormSafe2 FormContact FormMain FormCheck Walking WalkingSpec WalkingP.
Import ListNotations.
Open Scope string_scope.
Open Scope list_scope.
Open Scope nat_scope.

Section WalkingQ.
Context {K : num}.
Variable dbg : bool.
Local Notation fstate := (fstate K).
Local Notation step := (@Formulation.step K dbg).
Variables (Pe : env K -> Prop) (C : conf K) (nv na : nat) (M0 : mat K) (H0 : vec K) (x y : cobj K).
Hypothesis Hrob : robot_ok nv M0 H0.
Hypothesis Hx : is_six x "contact_rfoot".
Hypothesis Hy : is_six y "contact_lfoot".
Local Notation desc := (desc dbg Pe nv na M0 H0).

Definition objs (rf lf : bool) : list nat := (if rf then [0] else []) ++ (if lf then [1] else []).
Definition up (rf lf : bool) (s : fstate) : Prop :=
  exists cs q0 q1, desc [x; y] cs q0 q1 s /\ Permutation cs (objs rf lf) /\
    Permutation q0 (map lab (hard C nv na (feet rf lf))) /\ Permutation q1 (map lab (soft C (feet rf lf))).

Lemma oname_objs rf lf : map (oname [x; y]) (objs rf lf) = feet rf lf.
Proof.
  destruct Hx as (Ex & _), Hy as (Ey & _). unfold objs, feet, oname. destruct rf, lf; cbn; rewrite ?Ex, ?Ey; reflexivity.
Qed.
Lemma up_names rf lf cs : Permutation cs (objs rf lf) -> Permutation (map (oname [x; y]) cs) (feet rf lf).
Proof. intros H. rewrite <- oname_objs. apply Permutation_map. exact H. Qed.

(** ** What a description says about the observers *)
Definition irows (p : ckind -> bool) (i : K * option (string * ckind * nat)) : nat :=
  match snd i with Some (_, kd, r) => if p kd then r else 0 | None => 0 end.
Lemma rows_items (s : fstate) p q0 q1 : items s = [q0; q1] -> level_rows p (nth 0 (hqp s) []) = sum_nat (map (irows p) q0).
Proof.
  intros E. rewrite hard_rows_alt. unfold items in E. unfold level0.
  destruct (f_hqp s) as [|l0 l]; [discriminate|]. cbn [map] in E. injection E as <- _. cbn [nth].
  rewrite map_map. reflexivity.
Qed.

Lemma up_stands rf lf s : up rf lf s -> stands C nv na rf lf s.
Proof.
  intros (cs & q0 & q1 & D & Pc & P0 & P1).
  destruct (desc_inv dbg Pe nv na M0 H0 Hrob _ _ _ _ _ D) as (HA & HB & HS).
  assert (Ec := d_cs _ _ _ _ _ _ _ _ _ _ _ D). assert (Eo := d_objs _ _ _ _ _ _ _ _ _ _ _ D).
  assert (Ei := d_items _ _ _ _ _ _ _ _ _ _ _ D). assert (Hh := d_hist _ _ _ _ _ _ _ _ _ _ _ D).
  assert (Lc : List.length cs = count rf lf).
  { rewrite (Permutation_length Pc). destruct rf, lf; reflexivity. }
  assert (Dm := dims_reach dbg _ _ _ _ _ _ Hh). destruct Dm as (Dv & Du).
  assert (Cn : reach step (fun s o => names_ok s o /\ no_hard_force_removal s o) (init nv na M0 H0) s).
  { eapply reach_weaken; [|exact Hh]. intros z o ([A _] & B & _). split; assumption. }
  destruct (counters dbg nv na M0 H0 s Cn) as (Ne & Ni).
  unfold hard_eq_rows in Ne. unfold hard_in_rows in Ni.
  rewrite (rows_items s _ q0 q1 Ei) in Ne. rewrite (rows_items s _ q0 q1 Ei) in Ni.
  rewrite (sum_nat_perm _ _ (Permutation_map (irows is_eq) P0)) in Ne.
  rewrite (sum_nat_perm _ _ (Permutation_map (irows not_eq) P0)) in Ni.
  assert (Nv : nVar s = nv + 12 * count rf lf).
  { rewrite (nVar_sum s HA), Dv. f_equal. unfold slots. rewrite map_map. cbn [snd].
    rewrite <- Lc, <- Ec. unfold contact_objs. rewrite map_length.
    assert (F : forall c, In c (f_contacts s) -> cl_nforce s c = 12).
    { intros c Hc. assert (Ic : In (cl_obj c) (objs rf lf)).
      { eapply Permutation_in; [exact Pc|]. rewrite <- Ec. unfold contact_objs. apply in_map. exact Hc. }
      unfold cl_nforce, cobj_at. rewrite Eo. destruct Hx as (_ & X & _), Hy as (_ & Y & _).
      unfold objs in Ic. destruct rf, lf; cbn in Ic; repeat (destruct Ic as [<-|Ic]; [cbn; assumption|]); contradiction. }
    clear - F. induction (f_contacts s) as [|c l IH]; [reflexivity|].
    specialize (IH (fun z Hz => F z (or_intror Hz))). unfold sum_nat in *. cbn [map fold_right List.length].
    rewrite (F c (or_introl eq_refl)), IH. lia. }
  split; [|split; [exact Nv|split; [|split]]].
  - rewrite names_objs, Eo, Ec. apply up_names. exact Pc.
  - rewrite Ne. f_equal. unfold hard, foot_hard, feet, count.
    destruct rf, lf, ((n0 <=? w_contact C)%num), ((n0 <? w_torque_bounds C)%num), ((n0 <? w_joint_bounds C)%num); cbn; lia.
  - rewrite Ni. f_equal. unfold hard, foot_hard, feet, count.
    destruct rf, lf, ((n0 <=? w_contact C)%num), ((n0 <? w_torque_bounds C)%num), ((n0 <? w_joint_bounds C)%num); cbn; lia.
  - rewrite (shapes_items s HA), Ei. eexists _, _. split; [reflexivity|].
    assert (W : forall l, map (wide (nVar s)) l =
      map (fun z : K * option (string * ckind * nat) => (fst z, option_map (fun i => (i, nVar s)) (snd z))) (map lab l)).
    { intros l. rewrite map_map. reflexivity. }
    rewrite !W. split; apply Permutation_map; assumption.
Qed.

(** ** Calls of the user *)
Lemma hard_perm fs fs' f : Permutation fs' (fs ++ [f]) ->
  Permutation (map lab (hard C nv na fs) ++ hard_of C f) (map lab (hard C nv na fs')).
Proof.
  intros P. unfold hard_of. rewrite <- map_app. apply Permutation_map. unfold hard.
  rewrite <- !app_assoc. apply Permutation_app_head.
  rewrite (Permutation_flat_map (foot_hard C) P), flat_map_app. cbn [flat_map]. rewrite app_nil_r, <- app_assoc.
  apply Permutation_app_head. rewrite app_assoc. apply Permutation_app_comm.
Qed.
Lemma soft_perm fs fs' f : Permutation fs' (fs ++ [f]) ->
  Permutation (map lab (soft C fs) ++ soft_of C f) (map lab (soft C fs')).
Proof.
  intros P. unfold soft_of. rewrite <- map_app. apply Permutation_map. unfold soft.
  rewrite (Permutation_flat_map (foot_soft C) P), flat_map_app. cbn [flat_map]. rewrite app_nil_r, <- !app_assoc.
  apply Permutation_app_head. apply Permutation_app_comm.
Qed.

Lemma up_add (b : bool) rf lf s : up rf lf s -> (if b then rf else lf) = false ->
  exists s' r, step s (add_foot C (if b then 0 else 1)) = Ret s' r /\ up (if b then true else rf) (if b then lf else true) s'.
Proof.
  intros (cs & q0 & q1 & D & Pc & P0 & P1) Hb.
  assert (No : ~ In (if b then "contact_rfoot" else "contact_lfoot") (map (oname [x; y]) cs)).
  { intros I. apply (Permutation_in _ (up_names _ _ _ Pc)) in I. revert I. unfold feet.
    destruct b; subst; [destruct lf|destruct rf]; cbn; intuition discriminate. }
  destruct (desc_foot dbg Pe nv na M0 H0 Hrob [x; y] cs q0 q1 s C (if b then 0 else 1) (if b then x else y)
     (if b then "contact_rfoot" else "contact_lfoot") D) as (s' & r & E & D').
  { destruct b; reflexivity. }
  { destruct b; assumption. }
  { exact No. }
  exists s', r. split; [exact E|].
  assert (Pf : Permutation (feet (if b then true else rf) (if b then lf else true)) (feet rf lf ++ [if b then "contact_rfoot" else "contact_lfoot"])).
  { unfold feet. destruct b; subst; cbn; [destruct lf|destruct rf]; cbn; auto using perm_swap. }
  eexists _, _, _. split; [exact D'|]. split; [|split].
  - rewrite Pc. unfold objs. destruct b; subst; cbn; [destruct lf|destruct rf]; cbn; auto using perm_swap.
  - rewrite P0. apply hard_perm. exact Pf.
  - rewrite P1. apply soft_perm. exact Pf.
Qed.

Lemma up_remove (b : bool) rf lf s T : up rf lf s -> (if b then rf else lf) = true -> (n0 <? T)%num = false ->
  exists s' r, step s (ORemContact (if b then "contact_rfoot" else "contact_lfoot") T) = Ret s' r /\
    up (if b then false else rf) (if b then lf else false) s'.
Proof.
  intros (cs & q0 & q1 & D & Pc & P0 & P1) Hb HT.
  destruct (desc_remove dbg Pe nv na M0 H0 Hrob [x; y] cs q0 q1 s (if b then "contact_rfoot" else "contact_lfoot") T D) as (s' & r & E & D').
  { eapply Permutation_in; [symmetry; apply up_names; exact Pc|]. unfold feet.
    destruct b; subst; [destruct lf|destruct rf]; cbn; auto. }
  { exact HT. }
  exists s', r. split; [exact E|]. eexists _, _, _. split; [exact D'|]. split; [|split].
  - rewrite (Permutation_filter _ _ _ Pc). unfold objs, oname. destruct Hx as (Ex & _), Hy as (Ey & _).
    destruct b; subst; [destruct lf|destruct rf]; cbn; rewrite ?Ex, ?Ey; reflexivity.
  - rewrite (Permutation_filter _ _ _ P0). unfold hard, foot_hard, feet.
    destruct b; subst; [destruct lf|destruct rf];
    destruct ((n0 <=? w_contact C)%num), ((n0 <? w_torque_bounds C)%num), ((n0 <? w_joint_bounds C)%num); reflexivity.
  - rewrite (Permutation_filter _ _ _ P1). unfold soft, foot_soft, feet.
    destruct b; subst; [destruct lf|destruct rf];
    destruct ((n0 <=? w_contact C)%num); reflexivity.
Qed.

Definition fit (b : biped K) : Prop := up (b_rf b) (b_lf b) (b_f b).
Definition bseen (o : bop K) : Prop := match o with Compute _ e => Pe e | _ => True end.
Lemma fit_step b o : fit b -> data_rule b o -> flag_rule b o -> bseen o ->
  exists b' r, bstep dbg C b o = Ret b' r /\ fit b'.
Proof.
  destruct b as [s rf lf]. unfold fit. cbn [b_f b_rf b_lf]. intros U Hd Hf Hs. destruct o; cbn in Hd, Hf, Hs.
  - destruct Hf as (Hf & HT). destruct (up_remove true rf lf s T U Hf HT) as (s' & r & E & U').
    cbn [bstep b_f]. exists (mkBiped s' false lf), r. rewrite E. split; [reflexivity|exact U'].
  - destruct Hf as (Hf & HT). destruct (up_remove false rf lf s T U Hf HT) as (s' & r & E & U').
    cbn [bstep b_f]. exists (mkBiped s' rf false), r. rewrite E. split; [reflexivity|exact U'].
  - destruct (up_add true rf lf s U Hf) as (s' & r & E & U').
    cbn [bstep b_f]. exists (mkBiped s' true lf), r. rewrite E. split; [reflexivity|exact U'].
  - destruct (up_add false rf lf s U Hf) as (s' & r & E & U').
    cbn [bstep b_f]. exists (mkBiped s' rf true), r. rewrite E. split; [reflexivity|exact U'].
  - destruct U as (cs & q0 & q1 & D & P).
    destruct (desc_compute dbg Pe nv na M0 H0 Hrob _ _ _ _ _ t e D Hd Hs) as (s' & E & D' & _).
    cbn [bstep b_f]. exists (mkBiped s' rf lf), OutUnit. rewrite E. split; [reflexivity|]. exists cs, q0, q1. auto.
  - destruct U as (cs & q0 & q1 & D & P).
    destruct (desc_get dbg Pe nv na M0 H0 Hrob _ _ _ _ _ g x0 D ltac:(destruct Hd as [Hd1 Hd2]; split; [unfold nVar in Hd1; lia|exact Hd2])) as (s' & r & E & D').
    cbn [bstep b_f]. exists (mkBiped s' rf lf), r. rewrite E. split; [reflexivity|]. exists cs, q0, q1. auto.
Qed.

(** ** Constructor *)
Definition bare (s : fstate) : Prop :=
  f_contacts s = [] /\ f_motions s = [] /\ f_forces s = [] /\ f_acts s = [] /\ f_meas s = [].
Lemma bare_env (s : fstate) (e : env K) : f_nv s = nv -> bare s -> sizes_ok nv e -> env_ok s e.
Proof.
  intros Ev (B1 & B2 & B3 & B4 & B5) (E1 & E2 & E3). unfold env_ok. rewrite Ev, B1, B2, B3, B4, B5.
  repeat (split; [assumption|]). repeat split; intros; contradiction.
Qed.

Ltac add D E n kd r w lvl o :=
  match type of D with WalkingP.desc ?dbg ?Pe ?nv ?na ?M0 ?H0 _ _ _ _ ?s =>
    let s' := fresh "s" in let b := fresh "b" in let D' := fresh "D" in
    destruct (desc_task dbg Pe nv na M0 H0 ltac:(assumption) _ _ _ _ s n kd r w lvl n0 o D ltac:(constructor) ltac:(auto) ltac:(assumption) ltac:(lia) eq_refl) as (s' & b & E & D');
    [ destruct ((n0 <=? w_contact _)%num); reflexivity | rewrite E; clear D E; rename D' into D; cbn [Nat.eqb is_eq] in D ] end.
Lemma calls_app (s : fstate) (l1 l2 : list (fop K)) : calls dbg s (l1 ++ l2) = match calls dbg s l1 with Some s' => calls dbg s' l2 | None => None end.
Proof. revert s. induction l1 as [|o l IH]; intros s; [reflexivity|]. cbn [calls app]. destruct (step s o); auto. Qed.

Lemma start_ok (e0 e1 : env K) : conf_ok C -> sizes_ok nv e0 -> sizes_ok nv e1 -> Pe e0 -> Pe e1 ->
  exists b, biped_new dbg C nv na M0 H0 x y e0 e1 = Some b /\ b_rf b = true /\ b_lf b = true /\ fit b.
Proof.
  intros (Z & W1 & W2 & W3 & W4 & W5 & W6 & W7) S0 S1 Q0 Q1.
  assert (L : exists s, calls dbg (init nv na M0 H0) (start_calls C nv na x y e0 e1) = Some s /\ up true true s).
  { unfold start_calls. rewrite calls_app. cbn [calls].
    destruct (desc_compute dbg Pe nv na M0 H0 Hrob _ _ _ _ _ n0 e0 (desc_init dbg Pe nv na M0 H0)) as (s1 & E1 & D1 & Sm1 & Me1).
    { apply bare_env; [reflexivity|repeat split|exact S0]. }
    { exact Q0. }
    rewrite E1.
    destruct (desc_new dbg Pe nv na M0 H0 _ _ _ _ s1 x D1) as (s2 & r2 & E2 & D2 & Es2). rewrite E2.
    destruct (desc_compute dbg Pe nv na M0 H0 Hrob _ _ _ _ _ n0 e1 D2) as (s3 & E3 & D3 & Sm3 & Me3).
    { apply bare_env; [|repeat split|exact S1]; rewrite Es2; cbn.
      - apply (sm_nv _ _ Sm1).
      - apply (sm_con _ _ Sm1).
      - apply (sm_mot _ _ Sm1).
      - apply (sm_for _ _ Sm1).
      - apply (sm_act _ _ Sm1).
      - exact Me1. }
    { exact Q1. }
    rewrite E3. clear E1 E2 E3 D1 Sm1 Me1 Es2 Sm3 Me3.
    destruct (desc_foot dbg Pe nv na M0 H0 Hrob _ _ _ _ s3 C 0 x "contact_rfoot" D3 eq_refl Hx) as (s4 & r4 & E4 & D4); [intros []|].
    rewrite E4. cbn [app] in D4.
    destruct (desc_new dbg Pe nv na M0 H0 _ _ _ _ s4 y D4) as (s5 & r5 & E5 & D5 & _). rewrite E5. cbn [app] in D5.
    destruct (desc_foot dbg Pe nv na M0 H0 Hrob _ _ _ _ s5 C 1 y "contact_lfoot" D5 eq_refl Hy) as (s6 & r6 & E6 & D6).
    { unfold oname. cbn. rewrite (proj1 Hx). intros [F|[]]; discriminate. }
    rewrite E6. cbn [app] in D6. clear E4 E5 E6 D2 D3 D4 D5.
    unfold hard_of, soft_of, foot_hard, foot_soft in D6.
    add D6 E "task-com" CEq 3 (w_com C) 1 (OAddMotion 0 "task-com" CEq 3 (w_com C) 1 n0).
    add D6 E "task-cop" CEq 3 (w_cop C) 1 (OAddForce 1 "task-cop" CEq 3 (w_cop C) 1 n0).
    add D6 E "task-am" CEq 3 (w_am C) 1 (OAddMotion 2 "task-am" CEq 3 (w_am C) 1 n0).
    add D6 E "task-posture" CEq (n_posture C) (w_posture C) 1 (OAddMotion 3 "task-posture" CEq (n_posture C) (w_posture C) 1 n0).
    add D6 E "task-left-foot" CEq 6 (w_foot C) 1 (OAddMotion 4 "task-left-foot" CEq 6 (w_foot C) 1 n0).
    add D6 E "task-right-foot" CEq 6 (w_foot C) 1 (OAddMotion 5 "task-right-foot" CEq 6 (w_foot C) 1 n0).
    assert (Fin : forall z q0 q1, desc [x; y] [0; 1] q0 q1 z -> q0 = map lab (hard C nv na (feet true true)) ->
       q1 = map lab (soft C (feet true true)) -> up true true z).
    { intros z q0 q1 D -> ->. exists [0; 1]. eexists _, _. split; [exact D|]. repeat split; reflexivity. }
    destruct ((n0 <? w_torque_bounds C)%num) eqn:Tb; destruct ((n0 <? w_joint_bounds C)%num) eqn:Jb; cbn [app calls].
    - assert (W6' := W6 eq_refl). assert (W7' := W7 eq_refl).
      add D6 E "task-actuation-bounds" CIneq na (w_torque_bounds C) 0 (OAddAct 6 "task-actuation-bounds" CIneq na (w_torque_bounds C) 0 n0).
      add D6 E "task-joint-bounds" CBound nv (w_joint_bounds C) 0 (OAddMotion 7 "task-joint-bounds" CBound nv (w_joint_bounds C) 0 n0).
      eexists. split; [reflexivity|]. apply (Fin _ _ _ D6); unfold hard, soft, foot_hard, foot_soft; rewrite ?Tb, ?Jb;
        destruct ((n0 <=? w_contact C)%num); reflexivity.
    - assert (W6' := W6 eq_refl).
      add D6 E "task-actuation-bounds" CIneq na (w_torque_bounds C) 0 (OAddAct 6 "task-actuation-bounds" CIneq na (w_torque_bounds C) 0 n0).
      eexists. split; [reflexivity|]. apply (Fin _ _ _ D6); unfold hard, soft, foot_hard, foot_soft; rewrite ?Tb, ?Jb;
        destruct ((n0 <=? w_contact C)%num); reflexivity.
    - assert (W7' := W7 eq_refl).
      add D6 E "task-joint-bounds" CBound nv (w_joint_bounds C) 0 (OAddMotion 7 "task-joint-bounds" CBound nv (w_joint_bounds C) 0 n0).
      eexists. split; [reflexivity|]. apply (Fin _ _ _ D6); unfold hard, soft, foot_hard, foot_soft; rewrite ?Tb, ?Jb;
        destruct ((n0 <=? w_contact C)%num); reflexivity.
    - eexists. split; [reflexivity|]. apply (Fin _ _ _ D6); unfold hard, soft, foot_hard, foot_soft; rewrite ?Tb, ?Jb;
        destruct ((n0 <=? w_contact C)%num); reflexivity. }
  destruct L as (s & E & U). unfold biped_new. rewrite E. cbn. eexists. repeat split. exact U.
Qed.

End WalkingQ.

(** ** Programs *)
Section WalkingQ2.
Context {K : num}.
Variable dbg : bool.
Local Notation fstate := (fstate K).
Local Notation step := (@Formulation.step K dbg).
Variables (C : conf K) (nv na : nat) (M0 : mat K) (H0 : vec K) (x y : cobj K).
Hypothesis Hrob : robot_ok nv M0 H0.
Hypothesis Hx : is_six x "contact_rfoot".
Hypothesis Hy : is_six y "contact_lfoot".
Local Notation fit := (fit dbg (fun _ => True) C nv na M0 H0 x y).

Fixpoint smooth (b : biped K) (l : list (bop K)) (P : biped K -> Prop) : Prop :=
  match l with
  | [] => P b
  | o :: l' => data_rule b o -> exists b' r, bstep dbg C b o = Ret b' r /\ smooth b' l' P
  end.
Lemma smooth_app l1 : forall b l2 P, smooth b l1 (fun b' => smooth b' l2 P) -> smooth b (l1 ++ l2) P.
Proof.
  induction l1 as [|o l1 IH]; intros b l2 P H; [exact H|]. cbn in *. intros Hd.
  destruct (H Hd) as (b' & r & E & H'). exists b', r. split; [exact E|]. apply IH. exact H'.
Qed.
Lemma smooth_weaken l : forall b (P Q : biped K -> Prop), (forall b, P b -> Q b) -> smooth b l P -> smooth b l Q.
Proof.
  induction l as [|o l IH]; intros b P Q I H; [apply I; exact H|]. cbn in *. intros Hd.
  destruct (H Hd) as (b' & r & E & H'). exists b', r. split; [exact E|]. eapply IH; eauto.
Qed.
Lemma smooth_end l : forall b (P : biped K -> Prop) b', smooth b l P -> served dbg C b l b' -> P b'.
Proof.
  induction l as [|o l IH]; intros b P b' H Sv; inversion Sv; subst; [exact H|]. cbn in H.
  match goal with D : data_rule b o |- _ => destruct (H D) as (c & r' & E & H') end.
  match goal with E' : bstep dbg C b o = Ret ?b1 _ |- _ => assert (c = b1) by congruence; subst c end.
  eapply IH; eassumption.
Qed.
Lemma smooth_next l1 : forall b o l2 P b', smooth b (l1 ++ o :: l2) P -> served dbg C b l1 b' -> data_rule b' o ->
  exists b2 r, bstep dbg C b' o = Ret b2 r.
Proof.
  induction l1 as [|a l1 IH]; intros b o l2 P b' H Sv Hd; inversion Sv; subst.
  - cbn in H. destruct (H Hd) as (b2 & r & E & _). eauto.
  - cbn in H. match goal with D : data_rule b a |- _ => destruct (H D) as (c & r' & E & H') end.
    match goal with E' : bstep dbg C b a = Ret ?b1 _ |- _ => assert (c = b1) by congruence; subst c end.
    eapply IH; eassumption.
Qed.

Definition eff (o : bop K) (f : bool * bool) : bool * bool :=
  match o with
  | RemoveRF _ => (false, snd f) | RemoveLF _ => (fst f, false)
  | AddRF _ => (true, snd f) | AddLF _ => (fst f, true)
  | _ => f
  end.
Definition flags (b : biped K) : bool * bool := (b_rf b, b_lf b).
Lemma bstep_flags b o b' r : bstep dbg C b o = Ret b' r -> flags b' = eff o (flags b).
Proof.
  destruct o; cbn [bstep]; unfold onb; destruct (step _ _); intros E; try discriminate; injection E as <- _; reflexivity.
Qed.
Lemma smooth_one b o : fit b -> flag_rule b o -> smooth b [o] (fun b' => fit b' /\ flags b' = eff o (flags b)).
Proof.
  intros F R Hd. destruct (fit_step dbg (fun _ => True) C nv na M0 H0 x y Hrob Hx Hy b o F Hd R (match o with Compute _ _ => I | _ => I end)) as (b' & r & E & F'). exists b', r. split; [exact E|].
  split; [exact F'|]. eapply bstep_flags; exact E.
Qed.

(** ** The walking loop *)
Hypothesis Hzero : ((n0 : K) <? n0)%num = false.
Variables (N : nat) (ph : nat -> phase).
Hypothesis Hph : ph 0 = PRight.

Definition on (f : bool * bool) (b : biped K) : Prop := fit b /\ flags b = f.
Lemma on_two b f o1 o2 : on f b -> (forall z, on f z -> flag_rule z o1) -> (forall z, on (eff o1 f) z -> flag_rule z o2) ->
  smooth b [o1; o2] (on (eff o2 (eff o1 f))).
Proof.
  intros (F & E) R1 R2. apply (smooth_app [o1] b [o2]).
  eapply smooth_weaken; [|apply smooth_one; [exact F|apply R1; split; assumption]].
  intros z (Fz & Ez). rewrite E in Ez.
  eapply smooth_weaken; [|apply smooth_one; [exact Fz|apply R2; split; assumption]].
  intros w (Fw & Ew). split; [exact Fw|]. rewrite Ew, Ez. reflexivity.
Qed.

Lemma support_neg i : (i < 0)%Z -> support N ph i = (true, true).
Proof. intros H. unfold support. apply Z.ltb_lt in H. rewrite H. reflexivity. Qed.
Lemma support_pos i : (0 <= i)%Z -> support N ph i =
  match ph (Nat.min (Z.to_nat i) (N - 2)) with PRight => (true, false) | PLeft => (false, true) end.
Proof. intros H. unfold support. apply Z.ltb_ge in H. rewrite H. reflexivity. Qed.

Lemma switch_smooth i b : on (support N ph (i - 1)) b -> smooth b (switch N ph i) (on (support N ph i)).
Proof.
  intros O. unfold switch. destruct (Z.eqb_spec i 0) as [->|Hi].
  - rewrite (support_neg (0 - 1)) in O by lia. rewrite (support_pos 0) by lia. cbn [Z.to_nat Nat.min]. rewrite Hph.
    destruct O as (F & E). eapply smooth_weaken; [|apply smooth_one; [exact F|]].
    + intros z (Fz & Ez). split; [exact Fz|]. rewrite Ez, E. reflexivity.
    + cbn. unfold flags in E. injection E as _ E. split; [exact E|exact Hzero].
  - destruct ((0 <? i) && (i <? Z.of_nat N - 1))%Z eqn:G.
    + apply andb_true_iff in G. destruct G as (G1 & G2). apply Z.ltb_lt in G1, G2.
      rewrite (support_pos (i - 1)) in O by lia. rewrite (support_pos i) by lia.
      replace (Nat.min (Z.to_nat (i - 1)) (N - 2)) with (Z.to_nat i - 1) in O by lia.
      replace (Nat.min (Z.to_nat i) (N - 2)) with (Z.to_nat i) by lia.
      destruct (ph (Z.to_nat i)), (ph (Z.to_nat i - 1)); cbn [phase_eqb]; try exact O.
      * apply (on_two b (true, false) (AddLF n0) (RemoveRF n0) O); intros z (_ & Ez); unfold flags in Ez; injection Ez as E1 E2; cbn; auto.
      * apply (on_two b (false, true) (AddRF n0) (RemoveLF n0) O); intros z (_ & Ez); unfold flags in Ez; injection Ez as E1 E2; cbn; auto.
    + cbn [smooth]. apply andb_false_iff in G. rewrite Z.ltb_ge, Z.ltb_ge in G.
      destruct (Z.lt_trichotomy i 0) as [L|[L|L]]; [|lia|].
      * rewrite support_neg in * by lia. exact O.
      * rewrite support_pos in O |- * by lia.
        replace (Nat.min (Z.to_nat i) (N - 2)) with (Nat.min (Z.to_nat (i - 1)) (N - 2)) by lia. exact O.
Qed.

Lemma neutral_smooth f (l : list (bop K)) : Forall (fun o => forall z, flag_rule z o /\ forall g, eff o g = g) l ->
  forall b, on f b -> smooth b l (on f).
Proof.
  induction 1 as [|o l Ho _ IH]; intros b O; [exact O|]. destruct O as (F & E).
  apply (smooth_app [o] b l). eapply smooth_weaken; [|apply smooth_one; [exact F|apply (Ho b)]].
  intros z (Fz & Ez). apply IH. split; [exact Fz|]. rewrite Ez, E. apply (Ho b).
Qed.

Lemma loop_smooth l : forall i b, on (support N ph (i - 1)) b ->
  smooth b (loop N ph i l) (on (support N ph (i + Z.of_nat (List.length l) - 1))).
Proof.
  induction l as [|[[t e] g] l IH]; intros i b O.
  - cbn. replace (i + 0 - 1)%Z with (i - 1)%Z by lia. exact O.
  - cbn [loop]. unfold iteration. rewrite <- !app_assoc. apply smooth_app.
    eapply smooth_weaken; [|apply switch_smooth; exact O]. intros z Oz.
    rewrite app_assoc. apply smooth_app.
    eapply smooth_weaken; [|apply (neutral_smooth (support N ph i)); [|exact Oz]].
    + intros w Ow. replace (i + Z.of_nat (List.length ((t, e, g) :: l)) - 1)%Z with ((i + 1) + Z.of_nat (List.length l) - 1)%Z by (cbn [List.length]; lia).
      apply IH. replace (i + 1 - 1)%Z with i by lia. exact Ow.
    + constructor; [cbn; auto|]. apply Forall_forall. intros o Ho. apply in_map_iff in Ho. destruct Ho as (p & <- & _). cbn; auto.
Qed.

Lemma walk (e0 e1 : env K) b0 i0 : conf_ok C -> sizes_ok nv e0 -> sizes_ok nv e1 ->
  biped_new dbg C nv na M0 H0 x y e0 e1 = Some b0 -> (i0 <= 0)%Z ->
  forall l, let prog := loop N ph i0 l ++ switch N ph (i0 + Z.of_nat (List.length l)) in
  (forall l1 o l2 b, prog = l1 ++ o :: l2 -> served dbg C b0 l1 b -> data_rule b o ->
     exists b' r, bstep dbg C b o = Ret b' r) /\
  (forall b, served dbg C b0 prog b ->
     (b_rf b, b_lf b) = support N ph (i0 + Z.of_nat (List.length l)) /\ stands C nv na (b_rf b) (b_lf b) (b_f b)).
Proof.
  intros Hc S0 S1 E Hi l prog. destruct (start_ok dbg (fun _ => True) C nv na M0 H0 x y Hrob Hx Hy e0 e1 Hc S0 S1 I I) as (b & Eb & F1 & F2 & F).
  rewrite E in Eb. injection Eb as <-.
  assert (O : on (support N ph (i0 - 1)) b0) by (split; [exact F|unfold flags; rewrite F1, F2, support_neg by lia; reflexivity]).
  assert (Sm : smooth b0 prog (on (support N ph (i0 + Z.of_nat (List.length l))))).
  { unfold prog. apply smooth_app. eapply smooth_weaken; [|apply loop_smooth; exact O]. intros z Oz. apply switch_smooth. exact Oz. }
  split.
  - intros l1 o l2 z Ep Sv Hd. rewrite Ep in Sm. eapply smooth_next; eassumption.
  - intros z Sv. destruct (smooth_end _ _ _ _ Sm Sv) as (Fz & Ez). split; [exact Ez|]. apply (up_stands dbg (fun _ => True) C nv na M0 H0 x y Hrob Hx Hy). exact Fz.
Qed.
End WalkingQ2.
