(** Setters and initial values of the force and capture point tasks. *)
From Coq Require Import String List Arith Bool ZArith QArith Reals Qreals Lia Lra.
From Verif Require Import Scalar Outcome Linalg Constraint FrameTasks ForceTasks.
Open Scope string_scope.
Open Scope nat_scope.

Section S.
Context {K : num}.
Theorem cop_setters (s : copt K) :
  (forall r, exists s', cop_step s (QRef r) = Ret s' tt /\ (q_ref s', q_n s', q_c s') = (r, q_n s, q_c s)) /\
  (forall n, exists s', cop_step s (QNormal n) = Ret s' tt /\ (q_ref s', q_n s', q_c s') = (q_ref s, n, q_c s)) /\
  (forall jk l s', cop_step s (QCompute jk l) = Ret s' tt -> q_ref s' = q_ref s /\ q_n s' = q_n s).
Proof.
  cbn [cop_step]. split; [intros; eexists; split; reflexivity|]. split; [intros; eexists; split; reflexivity|].
  intros jk l s'. unfold cop_compute. destruct (ofold _ _ _); cbn [obind]; [|discriminate]. intros H. injection H as <-. split; reflexivity.
Qed.
(** The normal of a new task is the vertical axis, the reference the origin. *)
Theorem cop_initial name : (forall i, q_n (cop_new (K := K) name) i = if i =? 2 then n1 else n0) /\ (forall i, q_ref (cop_new (K := K) name) i = n0).
Proof. split; reflexivity. Qed.

(** Gains, leak rate, contact, reference and measured force. *)
Definition cf_conf (s : cft K) := (r_name s, (r_kp s, r_kd s, r_ki s), r_leak s, (r_val s, r_der s), (r_ev s, r_ed s)).
(** What the setters leave alone. *)
Definition cf_rest (s s' : cft K) : Prop := r_int s' = r_int s /\ r_dt s' = r_dt s /\ r_c s' = r_c s.
Theorem cf_setters (s : cft K) :
  (forall k, vlen k = 6 -> exists s', cf_step s (RKp k) = Ret s' tt /\ cf_rest s s' /\ cf_conf s' = (r_name s, (k, r_kd s, r_ki s), r_leak s, (r_val s, r_der s), (r_ev s, r_ed s))) /\
  (forall k, vlen k = 6 -> exists s', cf_step s (RKd k) = Ret s' tt /\ cf_rest s s' /\ cf_conf s' = (r_name s, (r_kp s, k, r_ki s), r_leak s, (r_val s, r_der s), (r_ev s, r_ed s))) /\
  (forall k, vlen k = 6 -> exists s', cf_step s (RKi k) = Ret s' tt /\ cf_rest s s' /\ cf_conf s' = (r_name s, (r_kp s, r_kd s, k), r_leak s, (r_val s, r_der s), (r_ev s, r_ed s))) /\
  (forall x, exists s', cf_step s (RLeak x) = Ret s' tt /\ cf_rest s s' /\ cf_conf s' = (r_name s, (r_kp s, r_kd s, r_ki s), x, (r_val s, r_der s), (r_ev s, r_ed s))) /\
  (forall n, exists s', cf_step s (RContact n) = Ret s' tt /\ cf_rest s s' /\ cf_conf s' = (n, (r_kp s, r_kd s, r_ki s), r_leak s, (r_val s, r_der s), (r_ev s, r_ed s))) /\
  (forall a b, exists s', cf_step s (RRef a b) = Ret s' tt /\ cf_rest s s' /\ cf_conf s' = (r_name s, (r_kp s, r_kd s, r_ki s), r_leak s, (a, b), (r_ev s, r_ed s))) /\
  (forall a b, exists s', cf_step s (RExt a b) = Ret s' tt /\ cf_rest s s' /\ cf_conf s' = (r_name s, (r_kp s, r_kd s, r_ki s), r_leak s, (r_val s, r_der s), (a, b))) /\
  (forall k, vlen k <> 6 -> cf_step s (RKp k) = Exc s /\ cf_step s (RKd k) = Exc s /\ cf_step s (RKi k) = Exc s) /\
  (forall B s', cf_step s (RCompute B) = Ret s' tt -> cf_conf s' = cf_conf s /\ r_dt s' = r_dt s).
Proof.
  cbn [cf_step]. split; [intros k ->; rewrite Nat.eqb_refl; eexists; repeat split|].
  split; [intros k ->; rewrite Nat.eqb_refl; eexists; repeat split|]. split; [intros k ->; rewrite Nat.eqb_refl; eexists; repeat split|].
  split; [intros; eexists; repeat split|]. split; [intros; eexists; repeat split|]. split; [intros; eexists; repeat split|]. split; [intros; eexists; repeat split|].
  split.
  - intros k H. apply Nat.eqb_neq in H. rewrite H. repeat split.
  - intros B s'. unfold cf_compute.
    repeat match goal with |- context [match obind ?o _ with _ => _ end] => destruct o; cbn [obind]; [|discriminate] end.
    intros H. injection H as <-. split; reflexivity.
Qed.
End S.
Theorem cf_initial name cname (dt : R) : let s0 := @cf_new Rnum name cname dt in
  r_name s0 = cname /\ r_dt s0 = dt /\ r_leak s0 = (1 / 20)%R /\ vlen (r_int s0) = 6 /\ (forall i, vget (r_int s0) i = 0%R) /\
  (forall i, vget (r_val s0) i = 0%R /\ vget (r_der s0) i = 0%R /\ vget (r_ev s0) i = 0%R /\ vget (r_ed s0) i = 0%R).
Proof.
  intros s0. split; [reflexivity|]. split; [reflexivity|]. split; [|repeat split]. unfold s0, cf_new, Rnum, nofQ, Q2R. cbn. lra.
Qed.
Theorem cap_initial name nv (dt g : R) jk : let s0 := @cap_new Rnum name nv dt g jk in
  v_dt s0 = dt /\ v_g s0 = g /\ forall i, v_min s0 i = 0%R /\ v_max s0 i = 0%R /\ v_mar s0 i = 0%R.
Proof. cbn. repeat split. Qed.
