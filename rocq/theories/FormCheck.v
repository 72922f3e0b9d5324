(** Executable versions of the usage rules, used to exhibit concrete histories. *)
From Coq Require Import String List Arith Bool ZArith Lia.
From Verif Require Import Scalar Outcome Linalg Constraint Formulation ListUtil FormSpec FormDataSpec FormSafe FormSafe2 FormMain.
Import ListNotations.
Open Scope string_scope.
Open Scope list_scope.
Open Scope nat_scope.

Definition ends_with (suf n : string) : bool :=
  String.eqb (substring (String.length n - String.length suf) (String.length suf) n) suf.
Lemma substring_full s : substring 0 (String.length s) s = s.
Proof. induction s as [|a s IH]; simpl; [reflexivity|]. f_equal; exact IH. Qed.
Lemma substring_app x suf : substring (String.length x) (String.length suf) (x ++ suf) = suf.
Proof. induction x as [|a x IH]; simpl; [apply substring_full|exact IH]. Qed.
Lemma string_length_app x y : String.length (x ++ y) = String.length x + String.length y.
Proof. induction x as [|a x IH]; simpl; auto. Qed.
Lemma ends_with_app x suf : ends_with suf (x ++ suf) = true.
Proof.
  unfold ends_with. rewrite string_length_app, Nat.add_sub. apply String.eqb_eq. apply substring_app.
Qed.
Definition reservedb (n : string) : bool :=
  String.eqb n "base-dynamics" || ends_with "_motion_task" n || ends_with "_force_constraint" n || ends_with "_force_reg_task" n.
Lemma reservedb_ok n : reservedb n = false -> ~ reserved n.
Proof.
  unfold reservedb. intros H R. rewrite !orb_false_iff in H. destruct H as [[[H1 H2] H3] H4].
  destruct R as [E | (x & [E | [E | E]])]; subst n; [discriminate| | |]; rewrite ends_with_app in *; discriminate.
Qed.
Lemma inb_ok n l : existsb (String.eqb n) l = false -> ~ In n l.
Proof.
  intros H Hi. assert (existsb (String.eqb n) l = true); [|congruence].
  apply existsb_exists. exists n. split; [exact Hi|apply String.eqb_refl].
Qed.
Lemma inb_in n l : existsb (String.eqb n) l = true -> In n l.
Proof. intros H. apply existsb_exists in H. destruct H as (m & Hm & E). apply String.eqb_eq in E. subst; exact Hm. Qed.

Section Check.
Context {K : num}.
Variable dbg : bool.
Implicit Types (s : fstate K) (o : fop K) (e : env K).
Local Notation step := (@Formulation.step K dbg).

Definition names_okb s o : bool :=
  match o with
  | OAddMotion _ n _ _ _ _ _ | OAddForce _ n _ _ _ _ _ | OAddAct _ n _ _ _ _ _ =>
      negb (reservedb n) && negb (existsb (String.eqb n) (hqp_names s))
  | OAddContact o _ _ _ =>
      match nth_error (f_objs s) o with
      | Some x => negb (existsb (String.eqb (co_name x)) (contact_names s))
      | None => true
      end
  | ORemTask n => negb (reservedb n)
  | _ => true
  end.
Lemma names_okb_ok s o : names_okb s o = true -> names_ok s o.
Proof.
  destruct o; simpl; auto.
  1-3: rewrite andb_true_iff, !negb_true_iff; intros [H1 H2]; split; [apply reservedb_ok; exact H1|apply inb_ok; exact H2].
  - destruct (nth_error (f_objs s) o); auto. rewrite negb_true_iff. apply inb_ok.
  - rewrite negb_true_iff. apply reservedb_ok.
Qed.

Definition task_data_okb (kd : ckind) (r n : nat) (c : constr K) : bool :=
  Bool.eqb (is_eq (c_kind c)) (is_eq kd) &&
  match crows c with Some r' => r' =? r | None => false end &&
  match c_kind c with CBound => r =? n | _ => mcols (c_mat c) =? n end.
Lemma task_data_okb_ok kd r n c : task_data_okb kd r n c = true -> task_data_ok kd r n c.
Proof.
  unfold task_data_okb, task_data_ok. rewrite !andb_true_iff. intros [[H1 H2] H3].
  split; [apply eqb_prop; exact H1|]. split.
  - destruct (crows c); [|discriminate]. apply Nat.eqb_eq in H2. congruence.
  - destruct (c_kind c); apply Nat.eqb_eq; exact H3.
Qed.
Definition uniform e : Prop :=
  forall (o : nat) (a b a' b' : K), let '(B, lb, ub) := e_cforce e o a b in let '(B', lb', ub') := e_cforce e o a' b' in
    mrows B = mrows B' /\ mcols B = mcols B' /\ vlen lb = vlen lb' /\ vlen ub = vlen ub'.
Definition contact_data_okb (nv : nat) e (o : nat) (x : cobj K) : bool :=
  let '(A, b) := e_cmotion e o in
  let '(C, d) := e_creg e o in
  let '(B, lb, ub) := e_cforce e o n0 n0 in
  (mrows A =? co_mrows x) && (mcols A =? nv) && (vlen b =? co_mrows x) &&
  (mrows (e_gen e o) =? co_mrows x) && (mcols (e_gen e o) =? co_nforce x) &&
  (mrows B =? co_frows x) && (mcols B =? co_nforce x) && (vlen lb =? co_frows x) && (vlen ub =? co_frows x) &&
  (mrows C =? co_rrows x) && (mcols C =? co_nforce x) && (vlen d =? co_rrows x).
Lemma contact_data_okb_ok nv e (o : nat) (x : cobj K) : uniform e -> contact_data_okb nv e o x = true -> contact_data_ok nv e o x.
Proof.
  intros U. unfold contact_data_okb, contact_data_ok. destruct (e_cmotion e o) as [A b], (e_creg e o) as [C d].
  assert (U0 := U o n0 n0). destruct (e_cforce e o n0 n0) as [[B lb] ub].
  rewrite !andb_true_iff, !Nat.eqb_eq. intros H. decompose [and] H. clear H.
  repeat (split; [assumption|]). split.
  - intros fmin fmax. assert (U1 := U0 fmin fmax). destruct (e_cforce e o fmin fmax) as [[B' lb'] ub'].
    destruct U1 as (U1 & U2 & U3 & U4). repeat split; congruence.
  - auto.
Qed.

Definition tasks_okb s e (n : tlevel -> nat) (l : list tlevel) : bool :=
  forallb (fun t => match nth_error (f_heap s) (tl_cstr t) with
                    | Some c => task_data_okb (c_kind c) (mrows (c_mat c)) (n t) (e_task e (tl_task t))
                    | None => true end) l.
Lemma tasks_okb_ok s e n l t kd r : tasks_okb s e n l = true -> In t l -> announced s t kd r ->
  task_data_ok kd r (n t) (e_task e (tl_task t)).
Proof.
  unfold tasks_okb. intros H Ht (c & Hc & <- & <-). rewrite forallb_forall in H. specialize (H t Ht).
  rewrite Hc in H. apply task_data_okb_ok; exact H.
Qed.

Definition env_okb s e : bool :=
  let nv := f_nv s in
  (mrows (e_mass e) =? nv) && (mcols (e_mass e) =? nv) && (vlen (e_nle e) =? nv) &&
  forallb (fun c => match nth_error (f_objs s) (cl_obj c) with
                    | Some x => contact_data_okb nv e (cl_obj c) x | None => true end) (f_contacts s) &&
  forallb (fun m : nat * string => vlen (e_meas e (fst m)) =? nv) (f_meas s) &&
  tasks_okb s e (fun _ => nv) (f_motions s) &&
  tasks_okb s e (fun t => force_size s (e_assoc e (tl_task t))) (f_forces s) &&
  tasks_okb s e (fun _ => nv - f_nu s) (f_acts s).
Lemma env_okb_ok s e : uniform e -> env_okb s e = true -> env_ok s e.
Proof.
  intros U. unfold env_okb, env_ok. rewrite !andb_true_iff, !Nat.eqb_eq.
  intros H. decompose [and] H. clear H. repeat (split; [assumption|]). split; [|split; [|split; [|split]]].
  - intros c x Hc Hx. match goal with H : forallb _ (f_contacts s) = true |- _ => rewrite forallb_forall in H; specialize (H c Hc); rewrite Hx in H end.
    apply contact_data_okb_ok; assumption.
  - intros m Hm. match goal with H : forallb _ (f_meas s) = true |- _ => rewrite forallb_forall in H; specialize (H m Hm) end.
    apply Nat.eqb_eq; assumption.
  - intros t kd r Ht Ha. eapply (tasks_okb_ok s e (fun _ => f_nv s)); eassumption.
  - intros t kd r Ht Ha. eapply (tasks_okb_ok s e (fun t => force_size s (e_assoc e (tl_task t)))); eassumption.
  - intros t kd r Ht Ha. eapply (tasks_okb_ok s e (fun _ => f_nv s - f_nu s)); eassumption.
Qed.

Definition pending_okb s (t : K) : bool :=
  forallb (fun c => (tr_t0 c <=? t)%num &&
                    ((t <=? tr_t1 c)%num || existsb (String.eqb (obj_name s (tr_obj c))) (contact_names s))) (f_trans s).
Lemma pending_okb_ok s t : pending_okb s t = true -> pending_ok s t.
Proof.
  unfold pending_okb, pending_ok. rewrite forallb_forall. intros H c Hc. specialize (H c Hc).
  apply andb_true_iff in H. destruct H as [H1 H2]. split; [exact H1|]. intros H3. rewrite H3 in H2. apply inb_in; exact H2.
Qed.
Definition op_okb s o : bool :=
  match o with
  | OSetFMin o _ | OSetFMax o _ => o <? List.length (f_objs s)
  | OAddMotion _ _ _ _ _ l _ | OAddForce _ _ _ _ _ l _ | OAddAct _ _ _ _ _ l _ => l <? List.length (f_hqp s)
  | OAddContact o _ _ l => (o <? List.length (f_objs s)) && (l <? List.length (f_hqp s))
  | ORemTask n => existsb (String.eqb n) (hqp_names s)
  | ORemContact n d => existsb (String.eqb n) (contact_names s)
  | OCompute t e => pending_okb s t &&
      match run_transitions dbg (w_t s t) [] (f_trans s) with Ret s1 _ => env_okb s1 e | _ => true end
  | OGet g x => (vlen x =? nVar s) &&
      match g with GForceOf _ => negb (f_dec s) || (vlen (f_f s) =? f_k s) | _ => true end
  | _ => true
  end.
Definition uniform_op o : Prop := match o with OCompute _ e => uniform e | _ => True end.
Lemma op_okb_ok s o : uniform_op o -> op_okb s o = true -> op_ok dbg s o.
Proof.
  intros U. destruct o; simpl; auto; rewrite ?andb_true_iff, ?Nat.ltb_lt; auto.
  - intros H _. apply inb_in; exact H.
  - intros H _ _. apply inb_in; exact H.
  - intros [H1 H2]. split; [intros _; apply pending_okb_ok; exact H1|]. intros s1 E. rewrite E in H2.
    apply env_okb_ok; assumption.
  - intros [H1 H2]. apply Nat.eqb_eq in H1. unfold nVar in H1. split; [split; lia|]. destruct g; auto. intros D. rewrite D in H2. simpl in H2.
    apply Nat.eqb_eq; exact H2.
Qed.

(** Run a history with [st] (equal to the real step on these calls), checking the
    usage rules of every call. *)
Variable st : fstate K -> fop K -> outcome (fstate K) (fout K).
Fixpoint okrun s (ops : list (fop K)) : option (fstate K) :=
  match ops with
  | [] => Some s
  | o :: ops' => if names_okb s o && op_okb s o
                 then match after (st s o) with Some s' => okrun s' ops' | None => None end
                 else None
  end.
Lemma okrun_reach asc s0 ops : forall s s',
  Forall (fun o => uniform_op o /\ assoc_fixed asc o /\ forall s, step s o = st s o) ops ->
  reach step (assoc_good dbg asc) s0 s -> okrun s ops = Some s' ->
  reach step (assoc_good dbg asc) s0 s'.
Proof.
  induction ops as [|o ops IH]; simpl; intros s s' F Hr H; [injection H as <-; exact Hr|].
  inversion F as [|? ? (U & As & Es) F']; subst.
  destruct (names_okb s o && op_okb s o) eqn:C; [|discriminate]. apply andb_true_iff in C. destruct C as [C1 C2].
  destruct (after (st s o)) as [s1|] eqn:E; [|discriminate]. apply (IH s1); [exact F'| |exact H].
  eapply reach_step; [exact Hr| |rewrite Es; exact E].
  split; [split; [apply names_okb_ok; exact C1|apply op_okb_ok; assumption]|exact As].
Qed.
End Check.

Section Weaken.
Context {K : num}.
Variable dbg : bool.
Local Notation step := (@Formulation.step K dbg).
Lemma reach_weaken (P Q : fstate K -> fop K -> Prop) s0 s :
  (forall s o, P s o -> Q s o) -> reach step P s0 s -> reach step Q s0 s.
Proof.
  intros H. induction 1 as [|s1 o s2 Hr IH Hp Ha]; [constructor|]. eapply reach_step; [exact IH|apply H; exact Hp|exact Ha].
Qed.

(** The step function on calls whose scalar arguments pass the checks: task weights
    and durations accepted, immediate contact removal. *)
Definition plain (o : fop K) : Prop :=
  match o with
  | OAddMotion _ _ _ _ w _ d | OAddForce _ _ _ _ w _ d | OAddAct _ _ _ _ w _ d => args_ok w d = true
  | ORemContact _ d => (n0 <? d)%num = false
  | _ => True
  end.
Definition plain_step (s : fstate K) (o : fop K) : outcome (fstate K) (fout K) :=
  match o with
  | OAddMotion id n kd r w l _ =>
      match add_task_cstr s n kd r w l with
      | Some (s', a) => Ret (w_motions s' (f_motions s' ++ [mkTl id n l a])) (OutBool true) | None => Undef end
  | OAddForce id n kd r w l _ =>
      match add_task_cstr s n kd r w l with
      | Some (s', a) => Ret (w_forces s' (f_forces s' ++ [mkTl id n l a])) (OutBool true) | None => Undef end
  | OAddAct id n kd r w l _ =>
      match add_task_cstr s n kd r w l with
      | Some (s', a) => Ret (w_acts s' (f_acts s' ++ [mkTl id n l a])) (OutBool true) | None => Undef end
  | ORemContact n _ => lift OutBool (remove_contact_now dbg s n)
  | _ => step s o
  end.
Lemma plain_step_ok s o : plain o -> step s o = plain_step s o.
Proof.
  destruct o; simpl; try reflexivity; intros H.
  - unfold add_motion. rewrite H. destruct (add_task_cstr _ _ _ _ _ _) as [[? ?]|]; reflexivity.
  - unfold add_force. rewrite H. destruct (add_task_cstr _ _ _ _ _ _) as [[? ?]|]; reflexivity.
  - unfold add_act. rewrite H. destruct (add_task_cstr _ _ _ _ _ _) as [[? ?]|]; reflexivity.
  - unfold remove_contact. rewrite H. reflexivity.
Qed.
End Weaken.
