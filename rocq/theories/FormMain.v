(** The theorems about the formulation, stated on call histories from the
    constructor.  [good] histories use fresh, unreserved names and calls whose data
    have the announced sizes (FormSpec.names_ok, FormSafe2.op_ok). *)
From Coq Require Import String List Arith Bool ZArith Lia Permutation Reals.
From Verif Require Import Scalar Outcome Linalg Constraint Formulation ListUtil FormSpec FormInv FormInvB FormInvC FormOps FormSafe FormSafe2 FormContact FormDataSpec FormData FormZero FormHist FormPhysSpec RSum FormPhys FormDecode FormTrans FormLevels.
Import ListNotations.
Open Scope string_scope.
Open Scope list_scope.
Open Scope nat_scope.

Section Main.
Context {K : num}.
Variable dbg : bool.
Implicit Types (s : fstate K) (o : fop K) (e : env K) (t w : K).
Local Notation step := (@Formulation.step K dbg).

Definition any s o : Prop := True.
Definition named s o : Prop := names_ok s o.
Definition good s o : Prop := names_ok s o /\ op_ok dbg s o.
Definition robot_ok (nv : nat) (M0 : mat K) (H0 : vec K) : Prop :=
  mrows M0 = nv /\ mcols M0 = nv /\ vlen H0 = nv.

(** What the solver and the user see of the problem. *)
Definition same_problem s s' : Prop :=
  hqp s' = hqp s /\ nVar s' = nVar s /\ nEq s' = nEq s /\ nIn s' = nIn s /\ slots s' = slots s.

Lemma good_AB nv na (M0 : mat K) H0 s : reach step good (init nv na M0 H0) s -> invA s /\ invB s.
Proof. apply invAB_reach. intros s0 o [H _]; exact H. Qed.
Lemma named_AB nv na (M0 : mat K) H0 s : reach step named (init nv na M0 H0) s -> invA s /\ invB s.
Proof. apply invAB_reach. auto. Qed.

(** C01 *)
Theorem counters nv na (M0 : mat K) H0 s :
  reach step (fun s o => names_ok s o /\ no_hard_force_removal s o) (init nv na M0 H0) s ->
  nEq s = Z.of_nat (hard_eq_rows s) /\ nIn s = Z.of_nat (hard_in_rows s).
Proof. intros H. apply invC_spec. apply (invABC_reach dbg _ _ _ _ _ H). Qed.

(** C02 *)
Theorem all_columns nv na (M0 : mat K) H0 s : reach step any (init nv na M0 H0) s ->
  nVar s = nv + sum_nat (map snd (slots s)) /\
  forall lvl en, In lvl (hqp s) -> In en lvl -> exists c, snd en = Some c /\ mcols (c_mat c) = nVar s.
Proof.
  intros H. assert (A := invA_reach dbg _ _ _ _ _ _ H).
  destruct (dims_reach dbg _ _ _ _ _ _ H) as [D1 _]. split.
  - rewrite (nVar_sum s A). congruence.
  - intros lvl en Hl He. destruct (no_dangling s A lvl en Hl He) as [c Hc]. exists c. split; [exact Hc|].
    eapply columns; eauto.
Qed.

(** C03 *)
Theorem slots_tile nv na (M0 : mat K) H0 s : reach step any (init nv na M0 H0) s ->
  tiles 0 (slots s) (f_k s) /\ nVar s = nv + f_k s /\
  forall o s', after (step s o) = Some s' -> order_step s o s'.
Proof.
  intros H. assert (A := invA_reach dbg _ _ _ _ _ _ H).
  destruct (dims_reach dbg _ _ _ _ _ _ H) as [D1 _].
  split; [exact (ia_tile _ A)|]. split; [unfold nVar; rewrite D1; reflexivity|].
  intros o s' Hs. eapply order_of_step; eauto.
Qed.

(** C04 *)
Definition removable_task o (n : string) : Prop :=
  match o with
  | OAddMotion _ m _ _ _ _ _ | OAddAct _ m _ _ _ _ _ => m = n
  | OAddForce _ m _ _ _ lvl _ => m = n /\ lvl <> 0
  | _ => False
  end.
Theorem add_remove_task nv na (M0 : mat K) H0 s o n s1 r :
  reach step named (init nv na M0 H0) s -> removable_task o n -> ~ In n (hqp_names s) ->
  step s o = Ret s1 r ->
  exists s2, step s1 (ORemTask n) = Ret s2 (OutBool true) /\ same_problem s s2 /\
    f_contacts s2 = f_contacts s /\ f_motions s2 = f_motions s /\ f_forces s2 = f_forces s /\
    f_acts s2 = f_acts s /\ f_meas s2 = f_meas s.
Proof.
  intros H Ho Hn Hs. destruct (named_AB _ _ _ _ _ H) as [A B].
  assert (X : exists s2, remove_task dbg s1 n = Ret s2 true /\ extended s s2).
  { destruct o; simpl in Ho; try contradiction; cbn [step Formulation.step] in Hs.
    - subst name. destruct (add_motion _ _ _ _ _ _ _ _) as [s1' b| |] eqn:E; try discriminate.
      injection Hs as -> _. eapply add_remove_motion; eauto.
    - destruct Ho as [-> Hl]. destruct (add_force _ _ _ _ _ _ _ _) as [s1' b| |] eqn:E; try discriminate.
      injection Hs as -> _. eapply add_remove_force; eauto.
    - subst name. destruct (add_act _ _ _ _ _ _ _ _) as [s1' b| |] eqn:E; try discriminate.
      injection Hs as -> _. eapply add_remove_act; eauto. }
  destruct X as (s2 & E2 & X). exists s2. split; [cbn [step Formulation.step]; rewrite E2; reflexivity|].
  split; [exact (extended_obs s s2 A X)|]. destruct X as [c ->]. repeat split.
Qed.

(** C05 *)
Theorem add_remove_contact_history nv na (M0 : mat K) H0 s (o : nat) (x : cobj K) (wr wm : K) lvl s1 r (d : K) :
  robot_ok nv M0 H0 -> reach step good (init nv na M0 H0) s ->
  nth_error (f_objs s) o = Some x -> ~ In (co_name x) (contact_names s) -> (n0 <? d)%num = false ->
  step s (OAddContact o wr wm lvl) = Ret s1 r ->
  exists s2, step s1 (ORemContact (co_name x) d) = Ret s2 (OutBool true) /\
    hqp_shapes s2 = hqp_shapes s /\ nVar s2 = nVar s /\ nEq s2 = nEq s /\ nIn s2 = nIn s /\
    f_contacts s2 = f_contacts s /\ f_objs s2 = f_objs s /\ f_motions s2 = f_motions s /\
    f_forces s2 = f_forces s /\ f_acts s2 = f_acts s /\ f_meas s2 = f_meas s.
Proof.
  intros (R1 & R2 & R3) H Hx Hn Hd Hs.
  destruct (safe_reach dbg _ _ _ _ _ R1 R2 R3 H) as (A & B & S).
  cbn [step Formulation.step] in Hs.
  destruct (add_contact s o wr wm lvl) as [s1' b| |] eqn:E; try discriminate. injection Hs as -> _.
  destruct (add_remove_contact dbg s o x wr wm lvl s1 b A B (is_cells _ (proj1 S)) Hx Hn E) as (s2 & E2 & X).
  exists s2. split; [|exact X]. cbn [step Formulation.step]. unfold remove_contact. rewrite Hd, E2. reflexivity.
Qed.

(** C06 *)
Lemma remove_task_result s n s' b : invA s -> invB s -> ~ reserved n ->
  remove_task dbg s n = Ret s' b -> (b = true <-> In n (hqp_names s)).
Proof.
  intros A B Hr H. unfold remove_task in H.
  assert (M : f_motions (fst (erase_hqp s n)) = f_motions s /\ f_forces (fst (erase_hqp s n)) = f_forces s /\
              f_acts (fst (erase_hqp s n)) = f_acts s).
  { unfold erase_hqp. destruct (erase_levels _ _ _); auto. }
  destruct (erase_hqp s n) as [s1 fnd]. simpl fst in M. destruct M as (M1 & M2 & M3).
  destruct (assert_ dbg fnd); [|discriminate]. rewrite M1, M2, M3 in H.
  assert (T : forall tk, In tk (tasks s) -> tl_name tk = n -> In n (hqp_names s)).
  { intros tk Ht En. destruct (b_task _ B tk Ht) as ((kd & r & Hi) & _ & Hl).
    rewrite hqp_names_addr. apply in_map_iff. exists (tl_cstr tk).
    split; [rewrite (info_name _ _ _ _ _ Hi); exact En|eapply in_level_in; exact Hl]. }
  destruct (take_task n (f_motions s)) as [[tk r]|] eqn:T1.
  { apply take_task_spec in T1. destruct T1 as (l1 & l2 & El & _ & En & _).
    assert (b = true).
    { destruct (tl_prio tk =? 0); [destruct (tl_rows s1 tk) as [[kd m]|]; [destruct kd|]|]; try discriminate;
        injection H as _ <-; reflexivity. }
    split; [|auto]. intros _. apply (T tk); [unfold tasks; rewrite El; apply in_or_app; left; apply in_elt|exact En]. }
  destruct (take_task n (f_forces s)) as [[tk r]|] eqn:T2.
  { apply take_task_spec in T2. destruct T2 as (l1 & l2 & El & _ & En & _).
    injection H as _ <-. split; [|auto]. intros _. apply (T tk); [|exact En].
    unfold tasks; rewrite El. apply in_or_app; right. apply in_or_app; left. apply in_elt. }
  destruct (take_task n (f_acts s)) as [[tk r]|] eqn:T3.
  { apply take_task_spec in T3. destruct T3 as (l1 & l2 & El & _ & En & _).
    assert (b = true).
    { destruct (tl_prio tk =? 0); [destruct (tl_rows s1 tk) as [[kd m]|]; [destruct kd|]|]; try discriminate;
        injection H as _ <-; reflexivity. }
    split; [|auto]. intros _. apply (T tk); [|exact En].
    unfold tasks; rewrite El. apply in_or_app; right. apply in_or_app; right. apply in_elt. }
  injection H as _ <-. split; [discriminate|]. intros Hi. exfalso.
  rewrite hqp_names_addr in Hi. apply in_map_iff in Hi. destruct Hi as (a & En & Ha).
  apply (Permutation_in _ (b_perm _ B)) in Ha.
  destruct (owner_name s a A B Ha) as [[_ E]|[(tk & Ht & _ & E & _)|(c & m & nf & mr & fr & rr & _ & _ & _ & E)]].
  - apply Hr. left. congruence.
  - apply take_task_none in T1, T2, T3. rewrite Forall_forall in T1, T2, T3.
    assert (En' : tl_name tk = n) by congruence.
    unfold tasks in Ht. apply in_app_or in Ht. destruct Ht as [Ht|Ht]; [exact (T1 _ Ht En')|].
    apply in_app_or in Ht. destruct Ht as [Ht|Ht]; [exact (T2 _ Ht En')|exact (T3 _ Ht En')].
  - apply Hr. right. exists m. destruct E as [[_ E]|[[_ E]|[_ E]]]; rewrite En in E; auto.
Qed.

Theorem removal_frame nv na (M0 : mat K) H0 s n s' r :
  reach step any (init nv na M0 H0) s -> step s (ORemTask n) = Ret s' r ->
  (absent_from 0 n (hqp s) /\ hqp s' = hqp s \/
   exists i j, first_at 0 n (hqp s) i j /\ hqp s' = del_at (hqp s) i j) /\
  nVar s' = nVar s /\ slots s' = slots s /\ f_meas s' = f_meas s /\ f_trans s' = f_trans s.
Proof.
  intros H Hs. assert (A := invA_reach dbg _ _ _ _ _ _ H). cbn [step Formulation.step] in Hs.
  destruct (remove_task dbg s n) as [s1 b| |] eqn:E; try discriminate. injection Hs as -> _.
  exact (remove_task_frame dbg s n s' b (invA_valid s A) E).
Qed.
Theorem removal_result nv na (M0 : mat K) H0 s n s' b :
  reach step named (init nv na M0 H0) s -> ~ reserved n -> step s (ORemTask n) = Ret s' (OutBool b) ->
  (b = true <-> In n (hqp_names s)).
Proof.
  intros H Hr Hs. destruct (named_AB _ _ _ _ _ H) as [A B]. cbn [step Formulation.step] in Hs.
  destruct (remove_task dbg s n) as [s1 b'| |] eqn:E; try discriminate. injection Hs as -> ->.
  exact (remove_task_result s n s' b A B Hr E).
Qed.

(** C07 *)
Theorem task_weight nv na (M0 : mat K) H0 s n w s' b :
  reach step any (init nv na M0 H0) s -> step s (OUpdTask n w) = Ret s' (OutBool b) ->
  b = false /\ absent_from 1 n (hqp s) /\ s' = s \/
  b = true /\ exists i j l w0 c, first_at 1 n (hqp s) i j /\
     nth_error (hqp s) i = Some l /\ nth_error l j = Some (w0, c) /\
     hqp s' = put_at (hqp s) i j (w, c) /\ s' = w_hqp s (f_hqp s').
Proof.
  intros H Hs. assert (A := invA_reach dbg _ _ _ _ _ _ H). cbn [step Formulation.step] in Hs.
  destruct (upd_task_weight s n w) as [s1 b'] eqn:E. injection Hs as -> ->.
  destruct (upd_task_weight_obs s n w s' b (invA_valid s A) E) as [X|(Hb & i & j & F & (l & w0 & c & X1 & X2 & X3) & X4)].
  - left; exact X.
  - right. split; [exact Hb|]. exists i, j, l, w0, c. auto.
Qed.

(** C08 *)
Theorem contact_weights nv na (M0 : mat K) H0 s n wf wm s' b :
  reach step named (init nv na M0 H0) s -> (wm <? n0)%num = negb (n0 <=? wm)%num ->
  step s (OUpdContact n wf wm) = Ret s' (OutBool b) ->
  hqp s' = reweight_soft n wf wm (hqp s) /\ s' = w_hqp s (f_hqp s') /\
  (b = true <-> soft_has (n ++ "_force_reg_task") (hqp s) /\
                (soft_has (n ++ "_motion_task") (hqp s) \/ (wm <? n0)%num = true)).
Proof.
  intros H Hc Hs. destruct (named_AB _ _ _ _ _ H) as [A B]. cbn [step Formulation.step] in Hs.
  destruct (upd_contact_weights s n wf wm) as [s1 b'] eqn:E. injection Hs as -> ->.
  exact (upd_contact_weights_obs s n wf wm s' b A B Hc E).
Qed.

(** C09 *)
Definition add_level o : option (K * nat * string) :=
  match o with
  | OAddMotion _ n _ _ w lvl d | OAddForce _ n _ _ w lvl d | OAddAct _ n _ _ w lvl d =>
      if (n0 <=? w)%num && (n0 <=? d)%num then Some (w, lvl, n) else None
  | _ => None
  end.
Theorem level_stored nv na (M0 : mat K) H0 s o w lvl n :
  reach step any (init nv na M0 H0) s -> add_level o = Some (w, lvl, n) ->
  (lvl < 2 -> exists s' l c, step s o = Ret s' (OutBool true) /\ nth_error (hqp s) lvl = Some l /\
                c_name c = n /\ hqp s' = lupd (hqp s) lvl (l ++ [(w, Some c)])) /\
  (2 <= lvl -> step s o = Undef).
Proof.
  intros H Ho. assert (A := invA_reach dbg _ _ _ _ _ _ H). assert (L := two_levels dbg _ _ _ _ _ _ H).
  assert (X : forall kd r, lvl < 2 -> exists s1 a l c, add_task_cstr s n kd r w lvl = Some (s1, a) /\
              nth_error (hqp s) lvl = Some l /\ c_name c = n /\ hqp s1 = lupd (hqp s) lvl (l ++ [(w, Some c)])).
  { intros kd r Hl. rewrite <- L in Hl. destruct (proj1 (add_task_level s n kd r w lvl) Hl) as (s1 & a & E).
    assert (E' := E). apply add_task_stored in E'. destruct E' as (_ & x & Ex & E' & _).
    exists s1, a, (map (deref s) x), (new_task_cstr n kd r (nVar s)).
    split; [exact E|]. unfold hqp at 1. rewrite nth_error_map, Ex. split; [reflexivity|].
    split; [destruct kd; reflexivity|].
    assert (Hh : f_heap s1 = f_heap s ++ [new_task_cstr n kd r (nVar s)]) by (rewrite E'; reflexivity).
    assert (Hq : f_hqp s1 = lupd (f_hqp s) lvl (x ++ [(w, List.length (f_heap s))])) by (rewrite E'; reflexivity).
    unfold hqp. rewrite Hq.
    assert (Dr : forall en, snd en < List.length (f_heap s) -> deref s1 en = deref s en).
    { intros en Hen. unfold deref. rewrite Hh, nth_error_app1 by exact Hen. reflexivity. }
    assert (V := invA_valid s A). unfold valid in V. rewrite Forall_forall in V.
    assert (Nw : map (deref s1) (x ++ [(w, List.length (f_heap s))]) =
                 map (deref s) x ++ [(w, Some (new_task_cstr n kd r (nVar s)))]).
    { rewrite map_app. simpl. f_equal.
      - apply map_ext_in. intros en Hen. apply Dr, V. apply in_concat. exists x. split; [eapply nth_error_In; exact Ex|exact Hen].
      - unfold deref. simpl. rewrite Hh, nth_error_app2 by lia. rewrite Nat.sub_diag. reflexivity. }
    rewrite map_lupd, Nw. f_equal. apply map_ext_in. intros l Hl'. apply map_ext_in. intros en Hen.
    apply Dr, V. apply in_concat. eauto. }
  assert (Y : forall kd r, 2 <= lvl -> add_task_cstr s n kd r w lvl = None).
  { intros kd r Hl. apply (proj2 (add_task_level s n kd r w lvl)). rewrite L. exact Hl. }
  destruct o; simpl in Ho; try discriminate;
    (destruct ((n0 <=? w0)%num && (n0 <=? dur)%num) eqn:Ea; [|discriminate]; injection Ho as -> -> ->;
     cbn [step Formulation.step]; unfold add_motion, add_force, add_act, args_ok; rewrite Ea;
     split; intros Hl; [destruct (X kd rows Hl) as (s1 & a & l & c & E & E1 & E2 & E3); rewrite E; simpl;
       eexists; exists l, c; split; [reflexivity|]; split; [exact E1|]; split; [exact E2|exact E3]
     |rewrite (Y kd rows Hl); reflexivity]).
Qed.
Theorem contact_level nv na (M0 : mat K) H0 s (o : nat) wr wm lvl :
  reach step any (init nv na M0 H0) s -> 2 <= lvl -> step s (OAddContact o wr wm lvl) = Undef.
Proof.
  intros H Hl. assert (L := two_levels dbg _ _ _ _ _ _ H). cbn [step Formulation.step].
  destruct (add_contact s o wr wm lvl) as [s1 b1|s1|] eqn:E; [| |reflexivity].
  - exfalso. apply add_contact_spec in E. destruct E as (_ & x & s2 & q1 & q2 & q3 & _ & Hr & X).
    cbv zeta in X. destruct X as (Hq & _). apply resize_len in Hr. unfold push_level in Hq.
    destruct (nth_error (f_hqp s2) lvl) eqn:N; [|discriminate].
    assert (lvl < List.length (f_hqp s2)) by (apply nth_error_Some; congruence).
    rewrite Hr in H1. cbn [f_hqp w_k] in H1. lia.
  - exfalso. unfold add_contact in E.
    repeat match type of E with context [match ?x with _ => _ end] => destruct x end; discriminate.
Qed.

(** C10 *)
Definition assoc_good (asc : nat -> string) s o : Prop := good s o /\ assoc_fixed asc o.
Lemma assoc_good_fixed asc s s0 :
  reach step (assoc_good asc) s0 s -> reach step (fixed_ok dbg asc) s0 s.
Proof.
  induction 1 as [|s1 o s2 Hr IH [[H1 H2] H3] Ha]; [constructor|].
  eapply reach_step; [exact IH| |exact Ha]. split; [exact H1|split; [exact H2|exact H3]].
Qed.
Theorem computed_data nv na (M0 : mat K) H0 asc s t e s' :
  robot_ok nv M0 H0 -> reach step (assoc_good asc) (init nv na M0 H0) s ->
  assoc_good asc s (OCompute t e) -> step s (OCompute t e) = Ret s' OutUnit -> data_ok s' e.
Proof.
  intros (R1 & R2 & R3) H [[O1 O2] O3] Hs. apply assoc_good_fixed in H.
  destruct (compute_data dbg nv na M0 H0 asc s t e s' R1 R2 R3 H (conj O1 (conj O2 O3)) Hs) as (_ & _ & _ & D).
  exact D.
Qed.
Theorem history_independent nv na nv' na' (M0 : mat K) H0 (M0' : mat K) H0' asc asc' s t s' q u q' e :
  robot_ok nv M0 H0 -> robot_ok nv' M0' H0' ->
  reach step (assoc_good asc) (init nv na M0 H0) s -> assoc_good asc s (OCompute t e) ->
  step s (OCompute t e) = Ret s' OutUnit ->
  reach step (assoc_good asc') (init nv' na' M0' H0') q -> assoc_good asc' q (OCompute u e) ->
  step q (OCompute u e) = Ret q' OutUnit ->
  same_present s' q' -> hqp_eq (hqp s') (hqp q').
Proof.
  intros (R1 & R2 & R3) (Q1 & Q2 & Q3) H [[O1 O2] O3] Hs H' [[P1 P2] P3] Hs' Sp.
  apply assoc_good_fixed in H, H'.
  eapply (compute_history_independent dbg nv na nv' na' M0 H0 M0' H0' asc asc' s t s' q u q' e); eauto;
    split; auto.
Qed.

(** C19 *)
Theorem force_task_own_contact nv na (M0 : mat K) H0 asc s t e s' f c :
  robot_ok nv M0 H0 -> reach step (assoc_good asc) (init nv na M0 H0) s ->
  assoc_good asc s (OCompute t e) -> step s (OCompute t e) = Ret s' OutUnit ->
  In f (f_forces s') -> In c (f_contacts s') ->
  cl_name s' c = asc (tl_task f) -> asc (tl_task f) <> "" ->
  task_filled s' f (f_nv s' + cl_index c) (cl_nforce s' c) (e_task e (tl_task f)).
Proof.
  intros (R1 & R2 & R3) H [[O1 O2] O3] Hs. apply assoc_good_fixed in H.
  eapply (force_task_own_slot dbg nv na M0 H0 asc s t e s' f c); eauto. split; auto.
Qed.

(** C54 *)
Theorem never_undefined nv na (M0 : mat K) H0 s o :
  robot_ok nv M0 H0 -> reach step good (init nv na M0 H0) s -> op_ok dbg s o -> step s o <> Undef.
Proof. intros (R1 & R2 & R3). apply no_undef; assumption. Qed.

(** C20 *)
Definition rejected o : Prop :=
  match o with
  | OAddMotion _ _ _ _ w _ d | OAddForce _ _ _ _ w _ d | OAddAct _ _ _ _ w _ d =>
      (n0 <=? w)%num = false \/ (n0 <=? d)%num = false
  | _ => False
  end.
Definition adds_task o : Prop :=
  match o with OAddMotion _ _ _ _ _ _ _ | OAddForce _ _ _ _ _ _ _ | OAddAct _ _ _ _ _ _ _ => True | _ => False end.
Theorem rejected_unchanged s o : adds_task o ->
  (rejected o <-> step s o = Exc s) /\ forall s', step s o = Exc s' -> s' = s.
Proof.
  intros Ha.
  assert (R : forall w d : K, (n0 <=? w)%num = false \/ (n0 <=? d)%num = false <-> args_ok w d = false).
  { intros w d. unfold args_ok. destruct ((n0 <=? w)%num), ((n0 <=? d)%num); simpl; intuition discriminate. }
  assert (L : forall r : outcome (fstate K) bool, lift OutBool r = Exc s <-> r = Exc s).
  { intros [? ?|?|]; simpl; split; intros E; try discriminate; congruence. }
  destruct o; simpl in Ha; try contradiction; cbn [step Formulation.step rejected]; rewrite R, L.
  - split; [apply add_motion_exc|]. unfold add_motion. intros s'. destruct (args_ok w dur); [|simpl; congruence].
    destruct (add_task_cstr _ _ _ _ _ _) as [[? ?]|]; discriminate.
  - split; [apply add_force_exc|]. unfold add_force. intros s'. destruct (args_ok w dur); [|simpl; congruence].
    destruct (add_task_cstr _ _ _ _ _ _) as [[? ?]|]; discriminate.
  - split; [apply add_act_exc|]. unfold add_act. intros s'. destruct (args_ok w dur); [|simpl; congruence].
    destruct (add_task_cstr _ _ _ _ _ _) as [[? ?]|]; discriminate.
Qed.

(** C14, C15 *)
Theorem getters_decode nv na (M0 : mat K) H0 s t e s' x l g s1 s2 v :
  reach step any (init nv na M0 H0) s -> step s (OCompute t e) = Ret s' OutUnit ->
  vlen x = nVar s' -> gets s' l x = Some s1 -> get s1 g x = Ret s2 v ->
  match g with
  | GAcc => vlen v = nv /\ forall j, j < nv -> vget v j = vget x j
  | GForce => vlen v = f_k s' /\ forall r, r < f_k s' -> vget v r = vget x (nv + r)
  | GTau => decode s' x = Some s2 /\ v = f_tau s2
  | GForceOf n =>
      (~ In n (contact_names s') -> vlen v = 0) /\
      (forall c, find_contact s' n = Some c ->
         vlen v = cl_nforce s' c /\
         forall r, r < cl_nforce s' c -> vget v r = vget x (nv + cl_index c + r))
  end.
Proof.
  intros H Hs Hx Hl Hg. assert (D := compute_not_decoded dbg s t e s' Hs).
  assert (H' : reach step any (init nv na M0 H0) s') by (eapply reach_step; [exact H|exact I|rewrite Hs; reflexivity]).
  assert (A := invA_reach dbg _ _ _ _ _ _ H').
  destruct (dims_reach dbg _ _ _ _ _ _ H') as [N1 _].
  destruct (gets_answer s' l x g s1 s2 v D Hx Hl Hg) as [Dc An].
  destruct (decode_encodes s' x s2 D Hx Dc) as (_ & (E1 & E2 & E3 & E4) & Es).
  rewrite N1 in *. destruct g; simpl in An.
  - split; [exact Dc|exact An].
  - subst v. split; [exact E1|exact E2].
  - subst v. split; [exact E3|exact E4].
  - assert (Fc : find_contact s2 name = find_contact s' name).
    { unfold find_contact. rewrite (take_contact_objs s' s2) by (rewrite Es; reflexivity). rewrite Es. reflexivity. }
    assert (Nf : forall c, cl_nforce s2 c = cl_nforce s' c) by (intros c; rewrite Es; reflexivity).
    rewrite Fc in An. split.
    + intros Hn. destruct (find_contact s' name) as [c|] eqn:Ef; [|exact An]. exfalso. apply Hn.
      unfold find_contact in Ef. destruct (take_contact s' name (f_contacts s')) as [[c' r]|] eqn:T; [|discriminate].
      apply take_contact_spec in T. destruct T as (l1 & l2 & T & _ & En & _).
      unfold contact_names. rewrite <- En. apply in_map. rewrite T. apply in_elt.
    + intros c Ef. rewrite Ef in An. rewrite Nf in An. destruct An as [A1 A2]. split; [exact A1|].
      intros r Hr. rewrite A2 by exact Hr. rewrite E4.
      * f_equal. lia.
      * unfold find_contact in Ef. destruct (take_contact s' name (f_contacts s')) as [[c' r']|] eqn:T; [|discriminate].
        injection Ef as ->. apply take_contact_spec in T. destruct T as (l1 & l2 & T & _).
        assert (B := slot_bound s' c A). rewrite T in B. specialize (B (in_elt _ _ _)). lia.
Qed.

(** C17 *)
Theorem transition_completes nv na (M0 : mat K) H0 s t e s' l1 c l2 :
  reach step named (init nv na M0 H0) s -> f_trans s = l1 ++ c :: l2 -> Forall (live t) l1 -> over t c ->
  step s (OCompute t e) = Ret s' OutUnit ->
  f_trans s' = l1 ++ l2 /\
  contact_names s' = without (obj_name s (tr_obj c)) (contact_names s) /\
  hqp_names s' = without3 (obj_name s (tr_obj c)) (hqp_names s).
Proof.
  intros H Ht HL Ho Hs. destruct (named_AB _ _ _ _ _ H) as [A B].
  destruct (transition_ends dbg s t e s' l1 c l2 A B Ht HL Ho Hs) as (X1 & X2 & X3 & _). auto.
Qed.
Theorem transitions_all_complete nv na (M0 : mat K) H0 s l s' :
  reach step named (init nv na M0 H0) s -> computes dbg s l = Some s' ->
  List.length (f_trans s) <= List.length l ->
  (forall t e c, In (t, e) l -> In c (f_trans s) -> over t c) ->
  f_trans s' = [] /\ forall c, In c (f_trans s) -> ~ In (obj_name s (tr_obj c)) (contact_names s').
Proof. intros H. destruct (named_AB _ _ _ _ _ H) as [A B]. apply transitions_drain; assumption. Qed.

End Main.

Section MainR.
Variable dbg : bool.
Implicit Types (s : fstate Rnum) (o : fop Rnum) (e : env Rnum) (t : Rnum).
Local Notation step := (@Formulation.step Rnum dbg).
Local Notation rsum := (@nsum Rnum).

Section After.
Variables (nv na : nat) (M0 : mat Rnum) (H0 : vec Rnum) (asc : nat -> string)
          (s : fstate Rnum) (t : Rnum) (e : env Rnum) (s' : fstate Rnum).
Hypotheses (R0 : robot_ok nv M0 H0) (Hr : reach step (assoc_good dbg asc) (init nv na M0 H0) s)
           (Ho : assoc_good dbg asc s (OCompute t e)) (Hs : step s (OCompute t e) = Ret s' OutUnit).

Lemma after_facts : invA s' /\ invB s' /\ invS s' /\ data_ok s' e /\ env_ok s' e /\ f_dec s' = false /\
  f_nv s' = nv /\ f_nu s' = nv - na.
Proof.
  destruct R0 as (R1 & R2 & R3). destruct Ho as [[O1 O2] O3]. assert (H := assoc_good_fixed dbg asc s _ Hr).
  assert (F : fixed_ok dbg asc s (OCompute t e)) by (split; auto).
  destruct (compute_data dbg nv na M0 H0 asc s t e s' R1 R2 R3 H F Hs) as (A & B & S & D).
  assert (E := compute_env dbg s t e s' asc F Hs).
  assert (H' : reach step (fun _ _ => True) (init nv na M0 H0) s').
  { eapply reach_step; [|exact I|rewrite Hs; reflexivity].
    clear - Hr. induction Hr as [|s1 o s2 Hr' IH Hp Ha]; [constructor|]. eapply reach_step; [exact (IH Hr')|exact I|exact Ha]. }
  destruct (dims_reach dbg _ _ _ _ _ _ H') as [N1 N2].
  repeat (split; [assumption|]). split; [|split; assumption].
  exact (compute_not_decoded dbg s t e s' Hs).
Qed.

(** C11 *)
Lemma feasible_physical x : hard_feasible s' x <-> physical s' e x.
Proof. destruct after_facts as (A & B & S & D & E & _). apply hard_physical; assumption. Qed.

(** C12 *)
Lemma decoded_dynamics x s1 dv s2 f s3 tau :
  vlen x = nVar s' ->
  get s' GAcc x = Ret s1 dv -> get s1 GForce x = Ret s2 f -> get s2 GTau x = Ret s3 tau ->
  vlen dv = nv /\ (forall j, j < nv -> vget dv j = vget x j) /\
  vlen f = f_k s' /\ (forall r, r < f_k s' -> vget f r = vget x (nv + r)) /\
  vlen tau = nv - (nv - na) /\
  (forall q, q < nv - (nv - na) -> vget tau q = needed_torque s' e (vget x) ((nv - na) + q)) /\
  ((forall i, i < nv - na -> needed_torque s' e (vget x) i = 0%R) ->
   forall i, i < nv ->
     (rsum nv (fun j => mget (e_mass e) i j * vget dv j) + vget (e_nle e) i - meas_torque s' e i
      = full_torque s' tau i + force_torque s' e f i)%R).
Proof.
  intros Hx G1 G2 G3. destruct after_facts as (A & B & S & D & E & Nd & N1 & N2).
  destruct (gets_answer s' [] x GAcc s' s1 dv Nd Hx eq_refl G1) as [D1 A1].
  assert (L2 : gets s' [GAcc] x = Some s1) by (simpl; rewrite G1; reflexivity).
  destruct (gets_answer s' [GAcc] x GForce s1 s2 f Nd Hx L2 G2) as [D2 A2].
  assert (L3 : gets s' [GAcc; GForce] x = Some s2) by (simpl; rewrite G1, G2; reflexivity).
  destruct (gets_answer s' _ x GTau s2 s3 tau Nd Hx L3 G3) as [D3 A3].
  assert (s2 = s1) by congruence. subst s2. assert (s3 = s1) by congruence. subst s3.
  simpl in A1, A2, A3. subst dv f tau.
  destruct (decode_encodes s' x s1 Nd Hx D1) as (_ & (E1 & E2 & E3 & E4) & _).
  destruct (decode_tau s' e A S D x s1 Nd Hx D1) as [T1 T2].
  assert (Mo := decode_motion s' e A B S D x s1 Nd Hx D1).
  rewrite N1, N2 in *. repeat (split; [assumption|]). intros Hb i Hi. apply Mo; assumption.
Qed.

(** C13 *)
Lemma actuation_constraint x s1 tau tk lvl en k :
  vlen x = nVar s' -> get s' GTau x = Ret s1 tau ->
  In tk (f_acts s') -> In lvl (hqp s') -> In en lvl -> snd en = Some k -> c_name k = tl_name tk ->
  (sat k (vget x) <-> sat (e_task e (tl_task tk)) (vget tau)).
Proof.
  intros Hx G Ht Hl He Hk Hn. destruct after_facts as (A & B & S & D & E & Nd & N1 & N2).
  apply get_answer in G. destruct G as [G ->].
  assert (Hk' : nth_error (f_heap s') (tl_cstr tk) = Some k).
  { unfold hqp in Hl. apply in_map_iff in Hl. destruct Hl as (l & <- & Hl).
    apply in_map_iff in He. destruct He as (en' & <- & He). unfold deref in Hk. simpl in Hk.
    assert (Tk : In tk (tasks s')) by (unfold tasks; apply in_or_app; right; apply in_or_app; right; exact Ht).
    destruct (b_task _ B tk Tk) as ((kd & r & Hi) & _ & (l' & Hl' & Ha)).
    apply in_map_iff in Ha. destruct Ha as (en2 & E2 & He2).
    assert (en' = en2).
    { apply (NoDup_map_inj (fun en => name_at (f_heap s') (snd en)) (concat (f_hqp s'))).
      - exact (b_names _ B).
      - apply in_concat. eauto.
      - apply in_concat. exists l'. split; [eapply nth_error_In; exact Hl'|exact He2].
      - rewrite E2, (info_name _ _ _ _ _ Hi). unfold name_at. cbv beta in *.
        match goal with |- match ?n with _ => _ end = _ => replace n with (Some k) by (symmetry; exact Hk) end. exact Hn. }
    subst en2. rewrite <- E2. exact Hk. }
  exact (act_torque s' e A B S D E tk k x s1 Ht Hk' Nd Hx G).
Qed.

(** C18 *)
Lemma external_torque i : i < nv -> vget (f_hfext s') i = meas_torque s' e i.
Proof.
  intros Hi. destruct after_facts as (_ & _ & _ & D & _ & _ & N1 & _). rewrite (dk_hfext _ _ D) by (rewrite N1; exact Hi).
  apply ext_meas.
Qed.
End After.
End MainR.
