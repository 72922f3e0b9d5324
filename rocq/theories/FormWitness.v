(** Concrete histories: they meet the hypotheses of the theorems of FormMain, and
    some of them show what happens outside these hypotheses. *)
From Coq Require Import String List Arith Bool ZArith QArith Reals Lia Lra.
From Verif Require Import Scalar Outcome Linalg Constraint Formulation ListUtil FormSpec FormDataSpec FormSafe FormSafe2 FormMain FormCheck FormPhysSpec FormDecode FormTrans.
Import ListNotations.
Open Scope string_scope.
Open Scope list_scope.
Open Scope nat_scope.

Section Scene.
Context {K : num}.
Variable dbg : bool.
Local Notation step := (@Formulation.step K dbg).

(** A robot with 3 velocities, 2 of them actuated; a foot with 2 force variables, a
    hand with 1; a task on the accelerations, one on the force of the foot, one
    bounding the torques; one measured force. *)
Definition q (x : Q) : K := nofQ x.
Definition row (l : list K) : nat -> nat -> K := fun _ j => nth j l n0.
Definition foot : cobj K := mkCobj "foot" 2 2 3 2 true (q 1) (q 100) (fun v => (vget v 0 + vget v 1)%num).
Definition hand : cobj K := mkCobj "hand" 1 1 1 1 true (q 1) (q 50) (fun v => vget v 0).
Definition one_env : env K :=
  mkEnv (mident 3 3) (mkVec 3 (fun i => if i =? 0 then q 10 else q 2))
        (fun o => if o =? 0 then (mident 2 3, vzero 2) else (mident 1 3, vzero 1))
        (fun o => if o =? 0 then mident 2 2 else mident 1 1)
        (fun o fmin fmax =>
           if o =? 0
           then (mkMat 3 2 (fun i j => if i =? 2 then q 1 else if i =? j then q 1 else q 0),
                 mkVec 3 (fun i => if i =? 2 then fmin else q (-1000)),
                 mkVec 3 (fun i => if i =? 2 then fmax else q 1000))
           else (mident 1 1, mkVec 1 (fun _ => fmin), mkVec 1 (fun _ => fmax)))
        (fun o => if o =? 0 then (mident 2 2, vzero 2) else (mident 1 1, vzero 1))
        (fun id => match id with
                   | 0 => mkConstr "com" CEq (mkMat 1 3 (row [q 1; q 2; q 0])) (mkVec 1 (fun _ => q 3)) (vzero 0) (vzero 0)
                   | 1 => mkConstr "fc" CIneq (mkMat 1 2 (row [q 1; q 1])) (vzero 0) (mkVec 1 (fun _ => q 0)) (mkVec 1 (fun _ => q 20))
                   | _ => mkConstr "tau" CBound (mident 2 2) (vzero 0) (mkVec 2 (fun _ => q (-50))) (mkVec 2 (fun _ => q 50))
                   end)
        (fun id => if id =? 1 then "foot" else "")
        (fun _ => mkVec 3 (fun i => if i =? 0 then q 1 else q 0)).
Definition asc (id : nat) : string := if id =? 1 then "foot" else "".
Definition s0 : fstate K := init 3 2 (mzero 3 3) (vzero 3).
Definition t0 : K := q 0.

Definition build : list (fop K) :=
  [ONewContact foot; ONewContact hand; OAddContact 0 n1 n1 0; OAddMotion 0 "com" CEq 1 n1 1 n0;
   OAddForce 1 "fc" CIneq 1 n1 1 n0; OAddAct 2 "tau" CBound 2 n1 0 n0; OAddMeas 0 "push"].
(** Same result by a detour: another contact was there for a while and computations
    were made meanwhile. *)
Definition detour : list (fop K) :=
  [ONewContact foot; ONewContact hand; OAddContact 1 n1 n1 0; OCompute t0 one_env; OAddMotion 0 "com" CEq 1 n1 1 n0;
   OAddContact 0 n1 n1 0; OCompute t0 one_env; ORemContact "hand" n0;
   ORemTask "com"; OAddMotion 0 "com" CEq 1 n1 1 n0; OAddForce 1 "fc" CIneq 1 n1 1 n0;
   OCompute t0 one_env; OAddAct 2 "tau" CBound 2 n1 0 n0; OAddMeas 0 "push"].

Definition built (l : list (fop K)) : fstate K :=
  match okrun dbg (plain_step dbg) s0 l with Some s => s | None => s0 end.
Definition some {A} (x : option A) : bool := match x with Some _ => true | None => false end.
Lemma built_ok l : some (okrun dbg (plain_step dbg) s0 l) = true -> okrun dbg (plain_step dbg) s0 l = Some (built l).
Proof. unfold built. destruct (okrun _ _ _ _); [reflexivity|discriminate]. Qed.


Lemma one_env_uniform : uniform one_env.
Proof. intros o a b a' b'. unfold one_env, e_cforce. destruct (o =? 0); simpl; auto. Qed.
Definition simple (o : fop K) : Prop := uniform_op o /\ assoc_fixed asc o /\ plain o.
Lemma simple_reach l s : Forall simple l -> okrun dbg (plain_step dbg) s0 l = Some s ->
  reach step (assoc_good dbg asc) s0 s.
Proof.
  intros F H. eapply okrun_reach; [|constructor|exact H]. eapply Forall_impl; [|exact F].
  intros o (H1 & H2 & H3). split; [exact H1|]. split; [exact H2|]. intros s'. apply plain_step_ok; exact H3.
Qed.

Definition ret_unit (r : outcome (fstate K) (fout K)) : bool := match r with Ret _ OutUnit => true | _ => false end.
Definition end_of (s : fstate K) (o : fop K) : fstate K := match step s o with Ret s' _ => s' | _ => s end.
Lemma scene l : Forall simple l ->
  some (okrun dbg (plain_step dbg) s0 l) = true ->
  names_okb (built l) (OCompute t0 one_env) && op_okb dbg (built l) (OCompute t0 one_env) = true ->
  ret_unit (step (built l) (OCompute t0 one_env)) = true ->
  reach step (assoc_good dbg asc) s0 (built l) /\
  assoc_good dbg asc (built l) (OCompute t0 one_env) /\
  step (built l) (OCompute t0 one_env) = Ret (end_of (built l) (OCompute t0 one_env)) OutUnit.
Proof.
  intros F H1 H2 H3. split; [|split].
  - apply (simple_reach l); [exact F|apply built_ok; exact H1].
  - apply andb_true_iff in H2. destruct H2 as [H2 H2']. split; [split|].
    + apply names_okb_ok; exact H2.
    + apply op_okb_ok; [apply one_env_uniform|exact H2'].
    + intros id; reflexivity.
  - unfold end_of. destruct (step (built l) _) as [s' r| |]; try discriminate. destruct r; try discriminate. reflexivity.
Qed.
End Scene.

Section Scene2.
Context {K : num}.

(** Scalars accepted by the argument checks (true of rationals and reals). *)
Definition checks_pass : Prop :=
  ((n0 : K) <=? n0)%num = true /\ ((n0 : K) <=? n1)%num = true /\ ((n0 : K) <? n0)%num = false.
Hypothesis Z : checks_pass.

Lemma args_pass : args_ok (n1 : K) n0 = true.
Proof. destruct Z as (A & B & _). unfold args_ok. apply andb_true_intro. split; [exact B|exact A]. Qed.
Lemma build_simple : Forall (@simple K) build.
Proof. assert (A := args_pass). repeat constructor; simpl; auto. Qed.
Lemma detour_simple : Forall (@simple K) detour.
Proof.
  assert (A := args_pass). destruct Z as (_ & _ & C). repeat constructor; simpl; auto using one_env_uniform.
Qed.
Lemma compute_simple : @simple K (OCompute t0 one_env).
Proof. repeat constructor. apply one_env_uniform. Qed.

Lemma build_scene dbg : reach (step dbg) (assoc_good dbg asc) (@s0 K) (@built K dbg build) /\
  assoc_good dbg asc (@built K dbg build) (OCompute t0 one_env) /\
  step dbg (@built K dbg build) (OCompute t0 one_env) = Ret (end_of dbg (@built K dbg build) (OCompute t0 one_env)) OutUnit.
Proof. apply scene; [apply build_simple| | |]; destruct dbg; vm_compute; reflexivity. Qed.
Lemma detour_scene dbg : reach (step dbg) (assoc_good dbg asc) (@s0 K) (@built K dbg detour) /\
  assoc_good dbg asc (@built K dbg detour) (OCompute t0 one_env) /\
  step dbg (@built K dbg detour) (OCompute t0 one_env) = Ret (end_of dbg (@built K dbg detour) (OCompute t0 one_env)) OutUnit.
Proof. apply scene; [apply detour_simple| | |]; destruct dbg; vm_compute; reflexivity. Qed.
Lemma same_scene dbg : same_present (end_of dbg (@built K dbg build) (OCompute t0 one_env)) (end_of dbg (@built K dbg detour) (OCompute t0 one_env)) /\
  f_heap (end_of dbg (@built K dbg build) (OCompute t0 one_env)) <> f_heap (end_of dbg (@built K dbg detour) (OCompute t0 one_env)).
Proof.
  split.
  - unfold same_present, same_tasks.
    assert (E : f_objs (end_of dbg (@built K dbg build) (OCompute t0 one_env)) = f_objs (end_of dbg (@built K dbg detour) (OCompute t0 one_env)))
      by (destruct dbg; vm_compute; reflexivity).
    rewrite E. repeat (split; [destruct dbg; vm_compute; reflexivity|]).
    destruct dbg; vm_compute; reflexivity.
  - intros E. apply (f_equal (@List.length _)) in E. revert E. destruct dbg; vm_compute; discriminate.
Qed.
End Scene2.

Lemma R_checks : @checks_pass Rnum.
Proof.
  split; [|split]; simpl.
  - apply Rleb_true; lra.
  - apply Rleb_true; lra.
  - apply Rltb_false; lra.
Qed.
Lemma Q_checks : @checks_pass Qnum.
Proof. repeat split. Qed.

(** The scene at the reals: a physically feasible and an infeasible point. *)
Local Notation sceneR dbg := (end_of dbg (@built Rnum dbg build) (OCompute (@t0 Rnum) (@one_env Rnum))).
Definition stand (i : nat) : R := if i =? 3 then 9%R else 0%R.
Lemma scene_lists dbg : f_nv (sceneR dbg) = 3 /\ f_nu (sceneR dbg) = 1 /\ f_contacts (sceneR dbg) = [mkCl 0 0 1 2 3] /\
  f_objs (sceneR dbg) = [foot; hand] /\ f_meas (sceneR dbg) = [(0, "push")] /\
  f_motions (sceneR dbg) = [mkTl 0 "com" 1 4] /\ f_forces (sceneR dbg) = [mkTl 1 "fc" 1 5] /\
  f_acts (sceneR dbg) = [mkTl 2 "tau" 0 6].
Proof. destruct dbg; repeat split; vm_compute; reflexivity. Qed.
Lemma Q2R_val (z : BinInt.Z) : Q2R (z # 1) = IZR z.
Proof. unfold Q2R. simpl. lra. Qed.
Lemma stand_physical dbg : physical (sceneR dbg) one_env stand.
Proof.
  destruct (scene_lists dbg) as (E1 & E2 & E3 & E4 & E5 & E6 & E7 & E8).
  assert (T : forall i, i < 3 -> needed_torque (sceneR dbg) one_env stand i = (if i =? 0 then 0 else 2)%R).
  { intros i Hi. unfold needed_torque, meas_torque, contact_torque. rewrite E1, E3, E5. unfold lsum, cl_nforce, cobj_at.
    rewrite E4. unfold force_of. rewrite E1.
    destruct i as [|[|[|i]]]; [| | |lia]; cbn; rewrite ?Q2R_val; unfold stand; cbn; try lra. }
  constructor; rewrite ?E1, ?E2, ?E3, ?E4, ?E5, ?E6, ?E7, ?E8.
  - intros i Hi. rewrite T by lia. destruct i; [reflexivity|lia].
  - intros c [<-|[]] _ i Hi. cbn in Hi. destruct i as [|[|i]]; [| |lia]; cbn; unfold stand; cbn; lra.
  - intros c o [<-|[]] Ho. cbn in Ho. injection Ho as <-. cbn [cl_obj e_cforce one_env Nat.eqb].
    intros i Hi. cbn in Hi. unfold force_of. rewrite E1.
    destruct i as [|[|[|i]]]; [| | |lia]; cbn; rewrite ?Q2R_val; unfold stand; cbn; lra.
  - intros t [<-|[]] H; discriminate.
  - intros t [<-|[]] H; discriminate.
  - intros t [<-|[]] _. unfold sat. cbn [one_env e_task tl_task c_kind c_lb vlen].
    intros i Hi. unfold lhs. cbn [c_kind c_ub vget]. rewrite T by lia. unfold q. simpl. rewrite !Q2R_val.
    destruct i as [|[|i]]; [| |lia]; simpl; lra.
Qed.
Lemma rest_not_physical dbg : ~ physical (sceneR dbg) one_env (fun _ => 0%R).
Proof.
  destruct (scene_lists dbg) as (E1 & E2 & E3 & E4 & E5 & _).
  intros [H _ _ _ _ _]. specialize (H 0). rewrite E2 in H. specialize (H Nat.lt_0_1). revert H.
  unfold needed_torque, meas_torque, contact_torque. rewrite E1, E3, E5. unfold lsum, cl_nforce, cobj_at.
  rewrite E4. unfold force_of. cbn. rewrite !Q2R_val. lra.
Qed.

(** A removal with a transition, half-way, at the reals. *)
Section Trans.
Variable dbg : bool.
Local Notation step := (@Formulation.step Rnum dbg).
Local Notation sb := (@built Rnum dbg build).
Definition half_way : ctrans Rnum := mkTr 0 (@n0 Rnum) (@n0 Rnum + n1)%num (@q Rnum 100) (@q Rnum 1 + nofQ (1 # 1000))%num.
Definition leaving : fstate Rnum := w_trans sb [half_way].
End Trans.
Lemma plain_run {K : num} dbg (P : fstate K -> fop K -> Prop) s1 l : forall s s',
  Forall (fun o => plain o /\ forall s, P s o) l -> reach (step dbg) P s1 s ->
  okrun dbg (plain_step dbg) s l = Some s' -> reach (step dbg) P s1 s'.
Proof.
  induction l as [|o l IH]; simpl; intros s s' F Hr H; [injection H as <-; exact Hr|].
  inversion F as [|? ? [F1 F2] F']; subst. destruct (names_okb s o && op_okb dbg s o); [|discriminate].
  destruct (after (plain_step dbg s o)) as [s2|] eqn:E; [|discriminate].
  apply (IH s2); [exact F'| |exact H]. eapply reach_step; [exact Hr|apply F2|]. rewrite plain_step_ok by exact F1. exact E.
Qed.
Lemma leaving_step dbg : step dbg (@built Rnum dbg build) (ORemContact "foot" (1%R : Rnum)) = Ret (leaving dbg) (OutBool true).
Proof.
  cbn [step]. unfold remove_contact. assert (E : (n0 <? (1%R : Rnum))%num = true) by (apply Rltb_true; simpl; lra).
  rewrite E. unfold leaving, half_way. destruct dbg; vm_compute; reflexivity.
Qed.
Lemma leaving_calm dbg : reach (step dbg) calm (@s0 Rnum) (leaving dbg).
Proof.
  eapply reach_step; [|  |rewrite leaving_step; reflexivity].
  - apply (plain_run dbg calm s0 build s0); [|constructor|].
    + assert (A := args_pass R_checks). repeat constructor; simpl; auto.
    + apply built_ok. destruct dbg; vm_compute; reflexivity.
  - intros c x Hc Hx Hn _. assert (Ec : f_contacts (@built Rnum dbg build) = [mkCl 0 0 1 2 3]) by (destruct dbg; vm_compute; reflexivity).
    rewrite Ec in Hc. destruct Hc as [<-|[]]. assert (Eo : f_objs (@built Rnum dbg build) = [foot; hand]) by (destruct dbg; vm_compute; reflexivity).
    rewrite Eo in Hx. cbn in Hx. injection Hx as <-. unfold start_bound.
    assert (Ef : vlen (f_f (@built Rnum dbg build)) = 0) by (destruct dbg; vm_compute; reflexivity). rewrite Ef. simpl.
    unfold q. simpl. rewrite !Q2R_val. lra.
Qed.
Lemma leaving_compute dbg : exists s', step dbg (leaving dbg) (OCompute ((1/2)%R : Rnum) one_env) = Ret s' OutUnit /\
  calm (leaving dbg) (OCompute ((1/2)%R : Rnum) one_env) /\ Forall (live ((1/2)%R : Rnum)) (f_trans (leaving dbg)).
Proof.
  assert (T : f_trans (leaving dbg) = [half_way]) by reflexivity.
  assert (Hc : calm (leaving dbg) (OCompute ((1/2)%R : Rnum) one_env)).
  { intros c Hc. rewrite T in Hc. destruct Hc as [<-|[]]. unfold half_way. simpl. lra. }
  assert (L : live ((1/2)%R : Rnum) half_way).
  { unfold live, half_way. apply Rleb_true. simpl. lra. }
  destruct (step dbg (leaving dbg) (OCompute ((1/2)%R : Rnum) one_env)) as [s' r|s'|] eqn:E.
  - exists s'. split; [|split; [exact Hc|rewrite T; constructor; [exact L|constructor]]].
    assert (X := compute_out _ _ _ _ _ _ E). subst r. reflexivity.
  - exfalso. exact (compute_no_throw dbg _ _ _ _ _ _ _ s' (leaving_calm dbg) Hc E).
  - exfalso. revert E. cbn [step]. unfold compute.
    match goal with |- context [f_trans ?x] => change (f_trans x) with [half_way] end.
    assert (A : (tr_t0 half_way <=? f_t (w_t (leaving dbg) ((1/2)%R : Rnum)))%num = true).
    { apply Rleb_true. unfold half_way. simpl. lra. }
    cbn [run_transitions]. rewrite A. assert (B : (f_t (w_t (leaving dbg) ((1/2)%R : Rnum)) <=? tr_t1 half_way)%num = true) by exact L.
    rewrite B. unfold obj_set_fmax.
    assert (O : cobj_at (w_t (leaving dbg) ((1/2)%R : Rnum)) (tr_obj half_way) = Some (@foot Rnum)) by (destruct dbg; vm_compute; reflexivity).
    rewrite O. 
    match goal with |- context [co_checks foot] => idtac end.
    match goal with |- context [negb (co_checks foot) || ?b] => assert (C : b = true) end.
    { apply Rleb_true. unfold half_way, q. simpl. unfold q. simpl. rewrite !Q2R_val. unfold Q2R. simpl. lra. }
    rewrite C. rewrite orb_true_r. 
    match goal with |- context [set_fmax foot ?f] => generalize f end. intros f.
    destruct dbg; vm_compute; discriminate.
Qed.

(** The histories above as sequences of calls from a given list. *)
Lemma okrun_in {K : num} dbg (l0 : list (fop K)) s1 l : forall s s',
  Forall simple l -> incl l l0 -> reach (step dbg) (fun s o => good dbg s o /\ In o l0) s1 s ->
  okrun dbg (plain_step dbg) s l = Some s' -> reach (step dbg) (fun s o => good dbg s o /\ In o l0) s1 s'.
Proof.
  induction l as [|o l IH]; simpl; intros s s' F Hi Hr H; [injection H as <-; exact Hr|].
  inversion F as [|? ? (F1 & F2 & F3) F']; subst. destruct (names_okb s o && op_okb dbg s o) eqn:C; [|discriminate].
  apply andb_true_iff in C. destruct C as [C1 C2].
  destruct (after (plain_step dbg s o)) as [s2|] eqn:E; [|discriminate].
  apply (IH s2); [exact F'|intros x Hx; apply Hi; right; exact Hx| |exact H].
  eapply reach_step; [exact Hr| |rewrite plain_step_ok by exact F3; exact E].
  split; [split; [apply names_okb_ok; exact C1|apply op_okb_ok; assumption]|apply Hi; left; reflexivity].
Qed.
Lemma build_in {K : num} dbg : @checks_pass K ->
  reach (step dbg) (fun s o => good dbg s o /\ In o build) (@s0 K) (built dbg build).
Proof.
  intros Z. apply (okrun_in dbg build s0 build s0); [apply build_simple; exact Z|apply incl_refl|constructor|].
  apply built_ok. destruct dbg; vm_compute; reflexivity.
Qed.
Lemma detour_in {K : num} dbg : @checks_pass K ->
  reach (step dbg) (fun s o => good dbg s o /\ In o detour) (@s0 K) (built dbg detour).
Proof.
  intros Z. apply (okrun_in dbg detour s0 detour s0); [apply detour_simple; exact Z|apply incl_refl|constructor|].
  apply built_ok. destruct dbg; vm_compute; reflexivity.
Qed.
Lemma build_good {K : num} dbg : @checks_pass K -> reach (step dbg) (good dbg) (@s0 K) (built dbg build).
Proof. intros Z. eapply reach_weaken; [|exact (build_in dbg Z)]. intros s o [H _]; exact H. Qed.
Lemma build_named {K : num} dbg : @checks_pass K -> reach (step dbg) named (@s0 K) (built dbg build).
Proof. intros Z. eapply reach_weaken; [|exact (build_in dbg Z)]. intros s o [[H _] _]; exact H. Qed.
Lemma build_any {K : num} dbg : @checks_pass K -> reach (step dbg) any (@s0 K) (built dbg build).
Proof. intros Z. eapply reach_weaken; [|exact (build_in dbg Z)]. intros s o _; exact I. Qed.
Lemma detour_named {K : num} dbg : @checks_pass K -> reach (step dbg) named (@s0 K) (built dbg detour).
Proof. intros Z. eapply reach_weaken; [|exact (detour_in dbg Z)]. intros s o [[H _] _]; exact H. Qed.

Fixpoint chkrun {K : num} dbg (chk : fstate K -> fop K -> bool) (s : fstate K) (l : list (fop K)) : bool :=
  match l with
  | [] => true
  | o :: l' => chk s o && match after (plain_step dbg s o) with Some s' => chkrun dbg chk s' l' | None => false end
  end.
Lemma chkrun_reach {K : num} dbg chk (P : fstate K -> fop K -> Prop) s1 l : forall s s',
  (forall s o, names_okb s o = true -> chk s o = true -> P s o) ->
  Forall plain l -> chkrun dbg chk s l = true -> reach (step dbg) P s1 s ->
  okrun dbg (plain_step dbg) s l = Some s' -> reach (step dbg) P s1 s'.
Proof.
  induction l as [|o l IH]; simpl; intros s s' HP F C Hr H; [injection H as <-; exact Hr|].
  inversion F as [|? ? F1 F2]; subst. apply andb_true_iff in C. destruct C as [C1 C2].
  destruct (names_okb s o && op_okb dbg s o) eqn:D; [|discriminate]. apply andb_true_iff in D. destruct D as [D _].
  destruct (after (plain_step dbg s o)) as [s2|] eqn:E; [|discriminate].
  apply (IH s2); auto. apply (reach_step _ _ _ s o s2 Hr (HP s o D C1)). rewrite plain_step_ok by exact F1. exact E.
Qed.
Definition no_hardb {K : num} (s : fstate K) (o : fop K) : bool :=
  match o with ORemTask n => forallb (fun t => negb (String.eqb (tl_name t) n && (tl_prio t =? 0))) (f_forces s) | _ => true end.
Lemma detour_counted dbg :
  reach (step dbg) (fun s o => names_ok s o /\ no_hard_force_removal s o) (@s0 Qnum) (built dbg detour).
Proof.
  apply (chkrun_reach dbg no_hardb _ s0 detour s0).
  - intros s o H1 H2. split; [apply names_okb_ok; exact H1|]. destruct o; simpl; auto.
    intros t Ht En Ep. simpl in H2. rewrite forallb_forall in H2. specialize (H2 t Ht).
    rewrite En, Ep, String.eqb_refl in H2. discriminate.
  - eapply Forall_impl; [|exact (detour_simple Q_checks)]. intros o (_ & _ & H); exact H.
  - destruct dbg; vm_compute; reflexivity.
  - constructor.
  - apply built_ok. destruct dbg; vm_compute; reflexivity.
Qed.

(** The getters answer on the scene. *)
Lemma get_some (s : fstate Rnum) g x :
  match get s g x with Ret _ _ => true | _ => false end = true -> exists s1 v, get s g x = Ret s1 v.
Proof. destruct (get s g x) as [a b| |]; try discriminate. eauto. Qed.
Lemma scene_getters dbg : exists s1 dv,
  get (sceneR dbg) GAcc (@mkVec Rnum 5 stand) = Ret s1 dv /\
  get s1 GForce (@mkVec Rnum 5 stand) = Ret s1 (f_f s1) /\ get s1 GTau (@mkVec Rnum 5 stand) = Ret s1 (f_tau s1).
Proof.
  destruct (get_some (sceneR dbg) GAcc (@mkVec Rnum 5 stand)) as (s1 & dv & E1); [destruct dbg; vm_compute; reflexivity|].
  exists s1, dv. split; [exact E1|]. apply get_answer in E1. destruct E1 as [L1 _].
  assert (H1 : f_dec s1 = true).
  { apply decode_encodes in L1; [apply L1|destruct dbg; vm_compute; reflexivity|destruct dbg; vm_compute; reflexivity]. }
  unfold get. rewrite (decode_cached s1 _ H1). split; reflexivity.
Qed.
Lemma scene_names dbg : nVar (sceneR dbg) = 5 /\ map tl_name (f_acts (sceneR dbg)) = ["tau"] /\
  map (cl_name (sceneR dbg)) (f_contacts (sceneR dbg)) = ["foot"].
Proof. split; [|split]; destruct dbg; vm_compute; reflexivity. Qed.
