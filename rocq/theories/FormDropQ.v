(** removeFromHqpData as a public call: what does not work afterwards, computed with
    rationals. *)
From Coq Require Import String List Arith Bool ZArith QArith Lia.
From Verif Require Import Scalar Outcome Linalg Constraint Formulation ListUtil FormSpec FormDataSpec FormSafe FormSafe2 FormMain FormCheck FormWitness FormTrans FormRefute FormDrop.
Import ListNotations.
Open Scope string_scope.
Open Scope list_scope.
Open Scope nat_scope.

Definition dropped (s : fstate Qnum) (n : string) : fstate Qnum := match remove_from_hqp s n with Ret s' _ => s' | _ => s end.
Lemma ret_drop s n : snd (erase_hqp s n) = true -> remove_from_hqp s n = Ret (dropped s n) true.
Proof. unfold dropped, remove_from_hqp. destruct (erase_hqp s n) as [s' b]. cbn [snd]. intros ->. reflexivity. Qed.
Lemma one_uniform : uniform (@one_env Qnum).
Proof. intros o a b a' b'. cbn. destruct (o =? 0); cbn; auto. Qed.

(** Without "base-dynamics" nothing keeps the variables within the equations of motion. *)
Definition computed : list (fop Qnum) := [OCompute 0%Q one_env].
Lemma drop_base dbg : exists s s' w c,
  reach (step dbg) (good dbg) sQ s /\ remove_from_hqp s "base-dynamics" = Ret s' true /\
  nth 0 (hqp s) [] = [(w, Some c)] /\ c_kind c = CEq /\ 0 < vlen (c_vec c) /\
  ~ (nsum (mcols (c_mat c)) (fun j => mget (c_mat c) 0 j * 0)%Q == vget (c_vec c) 0)%Q /\
  nth 0 (hqp s') [] = [] /\ nEq s' = nEq s /\ nEq s = 1%Z.
Proof.
  exists (endQ dbg computed), (dropped (endQ dbg computed) "base-dynamics"), 1%Q,
    (nth 0 (f_heap (endQ dbg computed)) (new_eq "" 0 0)).
  split; [apply endQ_good; [repeat constructor; exact one_uniform|destruct dbg; vm_compute; reflexivity]|].
  split; [apply ret_drop; destruct dbg; vm_compute; reflexivity|].
  split.
  { unfold hqp. replace (f_hqp (endQ dbg computed)) with [[(1%Q, 0)]; []] by (destruct dbg; vm_compute; reflexivity).
    cbn [map nth]. unfold deref. cbn [fst snd]. destruct dbg; reflexivity. }
  destruct dbg; splits; vm_compute; try reflexivity; try lia; discriminate.
Qed.

(** The constraint of a force task taken out of the data is not resized with it. *)
Definition late_contact : list (fop Qnum) :=
  [ONewContact foot; ONewContact hand; OAddContact 1 1%Q 1%Q 0; OAddForce 1 "fc" CIneq 1 1%Q 1 0%Q].
Definition is_undef {S A} (r : outcome S A) : bool := match r with Undef => true | _ => false end.
Lemma is_undef_ok {S A} (r : outcome S A) : is_undef r = true -> r = Undef.
Proof. destruct r; try discriminate; reflexivity. Qed.
Lemma drop_unresized dbg : exists s s' s1 s2,
  reach (step dbg) (good dbg) sQ s /\ remove_from_hqp s "fc" = Ret s' true /\
  step dbg s' (OAddContact 0 1%Q 1%Q 0) = Ret s1 (OutBool true) /\ step dbg s1 (OCompute 0%Q one_env) = Undef /\
  step dbg s (OAddContact 0 1%Q 1%Q 0) = Ret s2 (OutBool true) /\ good dbg s (OAddContact 0 1%Q 1%Q 0) /\ good dbg s2 (OCompute 0%Q one_env).
Proof.
  set (s := endQ dbg late_contact). set (s' := dropped s "fc"). set (o := OAddContact 0 1%Q 1%Q 0).
  exists s, s', (end_of dbg s' o), (end_of dbg s o).
  split; [apply endQ_good; [repeat constructor|destruct dbg; vm_compute; reflexivity]|].
  split; [apply ret_drop; subst s; destruct dbg; vm_compute; reflexivity|].
  split; [apply ret_bool; subst s' s o; destruct dbg; vm_compute; reflexivity|].
  split; [apply is_undef_ok; subst s' s o; destruct dbg; vm_compute; reflexivity|].
  split; [apply ret_bool; subst s' s o; destruct dbg; vm_compute; reflexivity|].
  split; (split; [apply names_okb_ok|apply op_okb_ok; [try exact I; exact one_uniform|]]; subst s' s o; destruct dbg; vm_compute; reflexivity).
Qed.

(** A contact whose motion constraint was taken out keeps its rows counted. *)
Lemma drop_counted dbg : exists s s' s3,
  reach (step dbg) (good dbg) sQ s /\ remove_from_hqp s "foot_motion_task" = Ret s' true /\
  remove_contact_now false s' "foot" = Ret s3 false /\ contact_names s3 = [] /\
  nEq s3 = 3%Z /\ hard_eq_rows s3 = 1.
Proof.
  set (s := endQ dbg one_foot). set (s' := dropped s "foot_motion_task").
  exists s, s', (match remove_contact_now false s' "foot" with Ret z _ => z | _ => s end).
  split; [apply endQ_good; [repeat constructor|destruct dbg; vm_compute; reflexivity]|].
  split; [apply ret_drop; subst s; destruct dbg; vm_compute; reflexivity|].
  split.
  { assert (H : match remove_contact_now false s' "foot" with Ret _ b => negb b | _ => false end = true) by (subst s' s; destruct dbg; vm_compute; reflexivity).
    destruct (remove_contact_now false s' "foot") as [z [|]| |]; try discriminate H. reflexivity. }
  subst s' s. destruct dbg; splits; vm_compute; reflexivity.
Qed.
