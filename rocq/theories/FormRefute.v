(** What the code does outside the conditions of the theorems: concrete call
    sequences, computed with rationals. *)
From Coq Require Import String List Arith Bool ZArith QArith Lia.
From Verif Require Import Scalar Outcome Linalg Constraint Formulation ListUtil FormSpec FormDataSpec FormSafe FormSafe2 FormMain FormCheck FormWitness FormTrans.
Import ListNotations.
Open Scope string_scope.
Open Scope list_scope.
Open Scope nat_scope.

#[local] Canonical Qnum.
Local Notation fq := (fop Qnum).
Ltac splits := repeat match goal with |- _ /\ _ => split end.
Definition sQ : fstate Qnum := s0.
Definition okQ (dbg : bool) (l : list fq) : option (fstate Qnum) := okrun dbg (step dbg) sQ l.
Lemma okQ_good dbg l s : Forall (@uniform_op Qnum) l -> okQ dbg l = Some s -> reach (step dbg) (good dbg) sQ s.
Proof.
  intros F H. unfold okQ in H.
  assert (G : forall l s1, Forall (@uniform_op Qnum) l -> reach (step dbg) (good dbg) sQ s1 -> okrun dbg (step dbg) s1 l = Some s ->
              reach (step dbg) (good dbg) sQ s).
  { clear. induction l as [|o l IH]; simpl; intros s1 F Hr H; [injection H as <-; exact Hr|].
    inversion F as [|? ? F1 F2]; subst. destruct (names_okb s1 o && op_okb dbg s1 o) eqn:C; [|discriminate].
    apply andb_true_iff in C. destruct C as [C1 C2].
    destruct (after (step dbg s1 o)) as [s2|] eqn:E; [|discriminate]. apply (IH s2); [exact F2| |exact H].
    eapply reach_step; [exact Hr| |exact E]. split; [apply names_okb_ok; exact C1|apply op_okb_ok; assumption]. }
  apply (G l sQ); [exact F|constructor|exact H].
Qed.
Definition endQ (dbg : bool) (l : list fq) : fstate Qnum := match okQ dbg l with Some s => s | None => sQ end.
Lemma endQ_good dbg l : Forall (@uniform_op Qnum) l -> some (okQ dbg l) = true -> reach (step dbg) (good dbg) sQ (endQ dbg l).
Proof. intros F H. apply (okQ_good dbg l); [exact F|]. unfold endQ. destruct (okQ dbg l); [reflexivity|discriminate]. Qed.

Lemma ret_end dbg (s : fstate Qnum) o : ret_unit (step dbg s o) = true -> step dbg s o = Ret (end_of dbg s o) OutUnit.
Proof. unfold end_of. destruct (step dbg s o) as [s' [| |]| |]; try discriminate. reflexivity. Qed.

Definition vec_of (r : outcome (fstate Qnum) (fout Qnum)) : option (vec Qnum) := match r with Ret _ (OutVec v) => Some v | _ => None end.
Definition vec_end dbg (s : fstate Qnum) o : vec Qnum := match vec_of (step dbg s o) with Some v => v | None => vzero 0 end.
Lemma ret_vec dbg (s : fstate Qnum) o : some (vec_of (step dbg s o)) = true -> step dbg s o = Ret (end_of dbg s o) (OutVec (vec_end dbg s o)).
Proof. unfold end_of, vec_end. destruct (step dbg s o) as [s' [| |]| |]; try discriminate. reflexivity. Qed.

Definition is_bool (b : bool) (r : outcome (fstate Qnum) (fout Qnum)) : bool := match r with Ret _ (OutBool c) => Bool.eqb b c | _ => false end.
Lemma ret_bool dbg (s : fstate Qnum) o b : is_bool b (step dbg s o) = true -> step dbg s o = Ret (end_of dbg s o) (OutBool b).
Proof.
  unfold end_of, is_bool. destruct (step dbg s o) as [s' [| |]| |]; try discriminate.
  intros H. apply eqb_prop in H. rewrite H. reflexivity.
Qed.

(** C01: removing a hard force task leaves its rows counted. *)
Definition hard_force : list fq := [OAddForce 0 "f" CEq 1 1%Q 0 0%Q; ORemTask "f"].
Theorem counters_refuted dbg : exists s, reach (step dbg) (good dbg) sQ s /\ nEq s <> Z.of_nat (hard_eq_rows s).
Proof.
  exists (endQ dbg hard_force). split.
  - apply endQ_good; [repeat constructor|destruct dbg; vm_compute; reflexivity].
  - destruct dbg; vm_compute; discriminate.
Qed.

(** C04: adding then removing a hard force task changes nEq. *)
Theorem add_remove_force_refuted dbg : exists s1 s2,
  step dbg sQ (OAddForce 0 "f" CEq 1 1%Q 0 0%Q) = Ret s1 (OutBool true) /\
  step dbg s1 (ORemTask "f") = Ret s2 (OutBool true) /\ nEq s2 <> nEq sQ.
Proof.
  set (s1 := end_of dbg sQ (OAddForce 0 "f" CEq 1 1%Q 0 0%Q)). exists s1, (end_of dbg s1 (ORemTask "f")).
  split; [apply ret_bool; destruct dbg; vm_compute; reflexivity|].
  split; [apply ret_bool; subst s1; destruct dbg; vm_compute; reflexivity|].
  subst s1; destruct dbg; vm_compute; discriminate.
Qed.

(** C06: removeTask with the name of an internal constraint deletes it and returns
    false. *)
Theorem remove_task_refuted dbg : exists s', step dbg sQ (ORemTask "base-dynamics") = Ret s' (OutBool false) /\
  hqp_names sQ = ["base-dynamics"] /\ hqp_names s' = [].
Proof.
  exists (end_of dbg sQ (ORemTask "base-dynamics")). split; [apply ret_bool; destruct dbg; vm_compute; reflexivity|].
  split; destruct dbg; vm_compute; reflexivity.
Qed.

(** C08: updateRigidContactWeights returns false although it changed the force
    weight (hard motion constraint). *)
Definition one_foot : list fq := [ONewContact foot; OAddContact 0 1%Q 1%Q 0].
Theorem contact_weights_refuted dbg : exists s s',
  reach (step dbg) (good dbg) sQ s /\ step dbg s (OUpdContact "foot" 5%Q 7%Q) = Ret s' (OutBool false) /\
  map fst (nth 1 (hqp s) []) = [1%Q] /\ map fst (nth 1 (hqp s') []) = [5%Q].
Proof.
  exists (endQ dbg one_foot), (end_of dbg (endQ dbg one_foot) (OUpdContact "foot" 5%Q 7%Q)).
  split; [apply endQ_good; [repeat constructor|destruct dbg; vm_compute; reflexivity]|].
  split; [apply ret_bool; destruct dbg; vm_compute; reflexivity|].
  split; destruct dbg; vm_compute; reflexivity.
Qed.

(** C09: adding at any level beyond the two existing ones is undefined, also for the
    very next level. *)
Theorem priority_levels_refuted dbg : exists o lvl, @add_level Qnum o = Some (1%Q, lvl, "com") /\ lvl = 2 /\
  step dbg sQ o = Undef.
Proof. exists (OAddMotion 0 "com" CEq 1 1%Q 2 0%Q), 2. destruct dbg; splits; vm_compute; reflexivity. Qed.

(** C10, C19: a force task re-associated with another contact keeps its old
    coefficients in the columns of the first contact. *)
Definition env_assoc (n : string) : env Qnum :=
  let e := @one_env Qnum in
  mkEnv (e_mass e) (e_nle e) (fun _ => e_cmotion e 0) (fun _ => e_gen e 0) (fun _ => e_cforce e 0) (fun _ => e_creg e 0)
        (fun _ => mkConstr "fc" CEq (mkMat 1 2 (fun _ _ => 1%Q)) (mkVec 1 (fun _ => 0%Q)) (vzero 0) (vzero 0))
        (fun _ => n) (e_meas e).
Definition foot2 : cobj Qnum := mkCobj "foot2" 2 2 3 2 true 1%Q 100%Q (fun v => vget v 0).
Lemma env_assoc_uniform n : uniform (env_assoc n).
Proof. intros o a b a' b'. simpl. auto. Qed.
Definition reassoc : list fq :=
  [ONewContact foot; ONewContact foot2; OAddContact 0 1%Q 1%Q 0; OAddContact 1 1%Q 1%Q 0;
   OAddForce 0 "fc" CEq 1 1%Q 1 0%Q; OCompute 0%Q (env_assoc "foot")].
Theorem force_task_refuted dbg : exists s s' f c k,
  reach (step dbg) (good dbg) sQ s /\ good dbg s (OCompute 0%Q (env_assoc "foot2")) /\
  step dbg s (OCompute 0%Q (env_assoc "foot2")) = Ret s' OutUnit /\
  In f (f_forces s') /\ In c (f_contacts s') /\ cl_name s' c = "foot" /\
  nth_error (f_heap s') (tl_cstr f) = Some k /\ mget (c_mat k) 0 (f_nv s' + cl_index c) = 1%Q.
Proof.
  exists (endQ dbg reassoc), (end_of dbg (endQ dbg reassoc) (OCompute 0%Q (env_assoc "foot2"))),
    (mkTl 0 "fc" 1 7), (mkCl 0 0 1 2 3).
  set (s' := end_of _ _ _). exists (nth 7 (f_heap s') (new_eq "" 0 0)).
  split; [apply endQ_good; [repeat constructor; simpl; auto using env_assoc_uniform|destruct dbg; vm_compute; reflexivity]|].
  split.
  { split; [apply names_okb_ok|apply op_okb_ok; [apply env_assoc_uniform|]]; destruct dbg; vm_compute; reflexivity. }
  subst s'. destruct dbg; (splits; [apply ret_end; vm_compute; reflexivity|vm_compute; auto|vm_compute; auto|vm_compute; reflexivity| |vm_compute; reflexivity]);
    apply nth_error_nth'; vm_compute; lia.
Qed.

(** C14: after one computation, a second, different solution is not decoded. *)
Definition with_force : list fq := one_foot ++ [OCompute 0%Q one_env].
Definition all_of (x : Q) : vec Qnum := mkVec 5 (fun _ => x).
Theorem getter_refuted dbg : exists s s1 s2 v v',
  reach (step dbg) (good dbg) sQ s /\ step dbg s (OGet GAcc (all_of 1)) = Ret s1 (OutVec v) /\
  step dbg s1 (OGet GAcc (all_of 2)) = Ret s2 (OutVec v') /\ vget v 0 = 1%Q /\ vget v' 0 = 1%Q.
Proof.
  set (s := endQ dbg with_force). set (s1 := end_of dbg s (OGet GAcc (all_of 1))).
  exists s, s1, (end_of dbg s1 (OGet GAcc (all_of 2))), (vec_end dbg s (OGet GAcc (all_of 1))), (vec_end dbg s1 (OGet GAcc (all_of 2))).
  split; [apply endQ_good; [repeat constructor; simpl; auto using (@one_env_uniform Qnum)|destruct dbg; vm_compute; reflexivity]|].
  split; [apply ret_vec; subst s; destruct dbg; vm_compute; reflexivity|].
  split; [apply ret_vec; subst s1 s; destruct dbg; vm_compute; reflexivity|].
  subst s1 s. split; destruct dbg; vm_compute; reflexivity.
Qed.

(** C15: a contact added after the solution was decoded: asking for its force reads
    outside the decoded vector. *)
Theorem contact_force_refuted dbg : exists s,
  reach (step dbg) (good dbg) sQ s /\ In "hand" (contact_names s) /\
  step dbg s (OGet (GForceOf "hand") (mkVec (nVar s) (fun _ => 0%Q))) = Undef.
Proof.
  exists (endQ dbg (with_force ++ [ONewContact hand; OGet GForce (all_of 1); OAddContact 1 1%Q 1%Q 0])).
  split; [apply endQ_good; [repeat constructor; simpl; auto using (@one_env_uniform Qnum)|destruct dbg; vm_compute; reflexivity]|].
  destruct dbg; (split; [vm_compute; auto|vm_compute; reflexivity]).
Qed.

(** C16: a removal whose starting force is below the minimum makes the next
    computation throw. *)
Theorem transition_throw_refuted dbg : exists s s' t e,
  reach (step dbg) (good dbg) sQ s /\ good dbg s (OCompute t e) /\ step dbg s (OCompute t e) = Exc s'.
Proof.
  set (s := endQ dbg (with_force ++ [OGet GForce (all_of 0); ORemContact "foot" 1%Q])).
  exists s, (match step dbg s (OCompute 0%Q one_env) with Exc s' => s' | _ => s end), 0%Q, (@one_env Qnum).
  split; [apply endQ_good; [repeat constructor; simpl; auto using (@one_env_uniform Qnum)|destruct dbg; vm_compute; reflexivity]|].
  split; [split; [apply names_okb_ok|apply op_okb_ok; [apply one_env_uniform|]]; subst s; destruct dbg; vm_compute; reflexivity|].
  destruct (step dbg s (OCompute 0%Q one_env)) as [a b|a|] eqn:E; [|reflexivity|];
    exfalso; apply (f_equal (fun r => match r with Exc _ => true | _ => false end)) in E; revert E;
    subst s; destruct dbg; vm_compute; discriminate.
Qed.

(** C17: (a) of two transitions that are over, a computation completes one only. *)
Definition two_leaving : list fq :=
  [ONewContact foot; ONewContact hand; OAddContact 0 1%Q 1%Q 0; OAddContact 1 1%Q 1%Q 0; OCompute 0%Q one_env;
   ORemContact "foot" 1%Q; ORemContact "hand" 1%Q].
Theorem both_transitions_refuted dbg : exists s s',
  reach (step dbg) (good dbg) sQ s /\ step dbg s (OCompute 2%Q one_env) = Ret s' OutUnit /\
  Forall (over (2%Q : Qnum)) (f_trans s) /\ map (fun c => obj_name s (tr_obj c)) (f_trans s) = ["foot"; "hand"] /\
  contact_names s' = ["hand"].
Proof.
  exists (endQ dbg two_leaving), (end_of dbg (endQ dbg two_leaving) (OCompute 2%Q one_env)).
  split; [apply endQ_good; [repeat constructor; simpl; auto using (@one_env_uniform Qnum)|destruct dbg; vm_compute; reflexivity]|].
  split; [apply ret_end; destruct dbg; vm_compute; reflexivity|]. split.
  { apply Forall_forall. intros c Hc. unfold over.
    assert (F : forallb (fun c => negb ((2%Q : Qnum) <=? tr_t1 c)%num) (f_trans (endQ dbg two_leaving)) = true) by (destruct dbg; vm_compute; reflexivity).
    rewrite forallb_forall in F. specialize (F c Hc). apply negb_true_iff in F. exact F. }
  split; destruct dbg; vm_compute; reflexivity.
Qed.

(** (b) A contact removed at once while a transition is pending, then added again,
    is removed by the old transition. *)
Definition add_again : list fq :=
  one_foot ++ [OCompute 0%Q one_env; ORemContact "foot" 1%Q; ORemContact "foot" 0%Q; OAddContact 0 1%Q 1%Q 0].
Theorem added_again_refuted dbg : exists s s',
  reach (step dbg) (good dbg) sQ s /\ step dbg s (OCompute 2%Q one_env) = Ret s' OutUnit /\
  contact_names s = ["foot"] /\ contact_names s' = [].
Proof.
  exists (endQ dbg add_again), (end_of dbg (endQ dbg add_again) (OCompute 2%Q one_env)).
  split; [apply endQ_good; [repeat constructor; simpl; auto using (@one_env_uniform Qnum)|destruct dbg; vm_compute; reflexivity]|].
  split; [apply ret_end; destruct dbg; vm_compute; reflexivity|]. split; destruct dbg; vm_compute; reflexivity.
Qed.

(** (c) The same without adding it again trips an assertion (debug builds). *)
Theorem removed_twice_refuted : exists s, reach (step true) (good true) sQ s /\
  step true s (OCompute 2%Q one_env) = Undef.
Proof.
  exists (endQ true (one_foot ++ [OCompute 0%Q one_env; ORemContact "foot" 1%Q; ORemContact "foot" 0%Q])).
  split; [apply endQ_good; [repeat constructor; simpl; auto using (@one_env_uniform Qnum)|vm_compute; reflexivity]|].
  vm_compute; reflexivity.
Qed.
