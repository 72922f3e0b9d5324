(** SE3ToVector and vectorToSE3 (src/math/utils.cpp:18-32, "ut") and the constant
    trajectories: src/trajectories/trajectory-euclidian.cpp ("te"),
    src/trajectories/trajectory-se3.cpp ("ts"),
    include/tsid/trajectories/trajectory-base.hpp ("tb"). *)
From Coq Require Import List Arith Bool Reals Lia Lra.
From Verif Require Import Scalar Outcome Linalg FrameTasks.
Import ListNotations.
Open Scope list_scope.
Open Scope nat_scope.

Section CT.
Context {K : num}.
Definition place : Type := (nat -> nat -> K) * (nat -> K).
(** ut:18-24 writes into a vector of the caller and throws on another size. *)
Definition se3_write (M : place) (v : vec K) : outcome (vec K) unit :=
  if vlen v =? 12 then Ret (se3_to_vec (fst M) (snd M)) tt else Exc v.
(** ut:26-32. *)
Definition se3_read (v : vec K) (M : place) : outcome place unit :=
  if vlen v =? 12 then Ret (vec_to_se3 v) tt else Exc M.

(** TrajectorySample (tb:33-72). *)
Record sample := mkSample { t_val : vec K; t_der : vec K; t_sec : vec K }.
(** resize (tb:58-64). *)
Definition sample_resize (n m : nat) : sample := mkSample (vzero n) (vzero m) (vzero m).
(** Calls on a trajectory and their results. *)
Inductive answer := Done | Got (s : sample) | Size (n : nat) | Ended (b : bool).
Inductive query := QAt (t : K) | QNext | QLast | QLastInto | QSize | QEnded.
(** The m_sample handed out by reference (te:29-40, ts:83-93, tb:88); size (te:25-27,
    ts:73: always 6 for SE3), has_trajectory_ended (te:42, ts:95). *)
Definition ask (size : sample -> nat) (s : sample) (q : query) : answer :=
  match q with QAt _ | QNext | QLast | QLastInto => Got s | QSize => Size (size s) | QEnded => Ended true end.

(** TrajectoryEuclidianConstant.  [ESet]: setReference (te:20-23) with a vector that does
    not overlap m_sample.  [ESetOwn off len]: with getLastSample().getValue().segment(off,
    len), bound without a copy: resize zeroes the value first, and frees its memory if the
    size differs. *)
Inductive eop := ESet (v : vec K) | ESetOwn (off len : nat) | EAsk (q : query).
Definition euc_size (s : sample) : nat := vlen (t_val s).
Definition euc_set (v : vec K) : sample := mkSample v (vzero (vlen v)) (vzero (vlen v)).
Definition euc_step (s : sample) (o : eop) : outcome sample answer :=
  match o with
  | ESet v => Ret (euc_set v) Done
  | ESetOwn off len =>
      if off + len <=? vlen (t_val s) then
        if (len =? vlen (t_val s)) || (len =? 0) then Ret (sample_resize len len) Done else Undef
      else Undef
  | EAsk q => Ret s (ask euc_size s q)
  end.
(** te:10-18; the default sample has size 0 (tb:52). *)
Definition euc_new (r : option (vec K)) : sample := match r with Some v => euc_set v | None => sample_resize 0 0 end.

(** TrajectorySE3Constant (ts:58-93). *)
Inductive sop := TSet (M : place) | TAsk (q : query).
Definition se3_set (M : place) : sample := mkSample (se3_to_vec (fst M) (snd M)) (vzero 6) (vzero 6).
Definition se3_step (s : sample) (o : sop) : outcome sample answer :=
  match o with TSet M => Ret (se3_set M) Done | TAsk q => Ret s (ask (fun _ => 6) s q) end.
Definition se3_new (M : option place) : sample := match M with Some m => se3_set m | None => sample_resize 12 6 end.
End CT.
Arguments place : clear implicits.
Arguments sample : clear implicits.
Arguments eop : clear implicits.
Arguments sop : clear implicits.
Arguments answer : clear implicits.
Arguments query : clear implicits.

Section CP.
Context {K : num}.
(** * SE3 as vector *)
Definition same_place (M N : place K) : Prop := forall i, i < 3 -> snd M i = snd N i /\ forall j, j < 3 -> fst M i j = fst N i j.
Lemma se3_write_read (M M0 : place K) (v : vec K) : vlen v = 12 -> exists w N, se3_write M v = Ret w tt /\ vlen w = 12 /\ se3_read w M0 = Ret N tt /\ same_place M N.
Proof.
  intros H. unfold se3_write. rewrite H, Nat.eqb_refl. do 2 eexists. split; [reflexivity|]. split; [reflexivity|]. unfold se3_read. cbn [se3_to_vec vlen Nat.eqb]. split; [reflexivity|].
  intros i Hi. destruct M as [R p]. cbn [vec_to_se3 fst snd se3_to_vec vget]. split.
  - apply Nat.ltb_lt in Hi. rewrite Hi. reflexivity.
  - intros j Hj. destruct i as [|[|[|i]]]; [| | |lia]; (destruct j as [|[|[|j]]]; [| | |lia]); reflexivity.
Qed.
Lemma se3_read_write (v w : vec K) (M0 : place K) : vlen v = 12 -> vlen w = 12 -> exists M u, se3_read v M0 = Ret M tt /\ se3_write M w = Ret u tt /\ veq u v.
Proof.
  intros H W. unfold se3_read. rewrite H, Nat.eqb_refl. do 2 eexists. split; [reflexivity|]. unfold se3_write. rewrite W, Nat.eqb_refl. split; [reflexivity|]. split; [symmetry; exact H|].
  intros i Hi. cbn [se3_to_vec vlen] in Hi. cbn [vec_to_se3 fst snd se3_to_vec vget]. destruct (Nat.ltb_spec i 3); [reflexivity|]. f_equal. assert (X := Nat.div_mod (i - 3) 3). lia.
Qed.
Lemma se3_sizes (M : place K) (v : vec K) : vlen v <> 12 -> se3_write M v = Exc v /\ se3_read v M = Exc M.
Proof. intros H. unfold se3_write, se3_read. apply Nat.eqb_neq in H. rewrite H. split; reflexivity. Qed.
(** The places of the entries: x y z, then the columns of the rotation. *)
Lemma se3_layout (M : place K) (v w : vec K) : se3_write M v = Ret w tt -> forall i, i < 3 -> vget w i = snd M i /\ forall j, j < 3 -> vget w (3 + 3 * j + i) = fst M i j.
Proof.
  unfold se3_write. destruct (vlen v =? 12); [|discriminate]. intros E. injection E as <-. intros i Hi. cbn [se3_to_vec vget]. split.
  - apply Nat.ltb_lt in Hi. rewrite Hi. reflexivity.
  - intros j Hj. destruct i as [|[|[|i]]]; [| | |lia]; (destruct j as [|[|[|j]]]; [| | |lia]); reflexivity.
Qed.

(** * Constant trajectories *)
(** Last reference given. *)
Fixpoint last_ref (r : option (vec K)) (ops : list (eop K)) : option (vec K) :=
  match ops with [] => r | ESet v :: l => last_ref (Some v) l | ESetOwn _ _ :: l => last_ref r l | EAsk _ :: l => last_ref r l end.
Fixpoint last_place (r : option (place K)) (ops : list (sop K)) : option (place K) :=
  match ops with [] => r | TSet v :: l => last_place (Some v) l | TAsk _ :: l => last_place r l end.
Definition outside (o : eop K) : Prop := match o with ESetOwn _ _ => False | _ => True end.
(** The reference and zero derivatives of [n] entries. *)
Definition constant_sample (v : vec K) (n : nat) (s : sample K) : Prop :=
  t_val s = v /\ vlen (t_der s) = n /\ vlen (t_sec s) = n /\ (forall i, vget (t_der s) i = n0) /\ (forall i, vget (t_sec s) i = n0).
Definition sampled (q : query K) : Prop := match q with QAt _ | QNext | QLast | QLastInto => True | _ => False end.

Lemma euc_run r ops : Forall outside ops -> exists s, run euc_step (euc_new r) ops = Some s /\ s = euc_new (last_ref r ops).
Proof.
  revert r. induction ops as [|o ops IH]; intros r F; [eexists; split; reflexivity|]. inversion F as [|? ? F1 F2]; subst. destruct o as [v|off len|q]; [|contradiction|].
  - destruct (IH (Some v) F2) as (s & E & Es). exists s. split; [exact E|exact Es].
  - destruct (IH r F2) as (s & E & Es). exists s. split; [exact E|exact Es].
Qed.
Lemma euc_constant r ops v : Forall outside ops -> last_ref r ops = Some v -> exists s, run euc_step (euc_new r) ops = Some s /\
  (forall q, sampled q -> exists a, euc_step s (EAsk q) = Ret s (Got a) /\ constant_sample v (vlen v) a) /\
  euc_step s (EAsk QSize) = Ret s (Size (vlen v)) /\ euc_step s (EAsk QEnded) = Ret s (Ended true).
Proof.
  intros F L. destruct (euc_run r ops F) as (s & E & ->). exists (euc_new (last_ref r ops)). split; [exact E|]. rewrite L. split; [|split; reflexivity].
  intros q Q. exists (euc_new (Some v)). split; [destruct q; try contradiction; reflexivity|]. unfold constant_sample. cbn. repeat split; reflexivity.
Qed.
Lemma se3_run r ops : exists s, run se3_step (se3_new r) ops = Some s /\ s = se3_new (last_place r ops).
Proof.
  revert r. induction ops as [|o ops IH]; intros r; [eexists; split; reflexivity|]. destruct o as [v|q].
  - destruct (IH (Some v)) as (s & E & Es). exists s. split; [exact E|exact Es].
  - destruct (IH r) as (s & E & Es). exists s. split; [exact E|exact Es].
Qed.
Lemma se3_constant r ops M : last_place r ops = Some M -> exists s, run se3_step (se3_new r) ops = Some s /\
  (forall q, sampled q -> exists a v, se3_step s (TAsk q) = Ret s (Got a) /\ constant_sample v 6 a /\ forall M0, exists N, se3_read v M0 = Ret N tt /\ same_place M N) /\
  se3_step s (TAsk QSize) = Ret s (Size 6) /\ se3_step s (TAsk QEnded) = Ret s (Ended true).
Proof.
  intros L. destruct (se3_run r ops) as (s & E & ->). exists (se3_new (last_place r ops)). split; [exact E|]. rewrite L. split; [|split; reflexivity].
  intros q Q. exists (se3_set M), (se3_to_vec (fst M) (snd M)). split; [destruct q; try contradiction; reflexivity|]. split; [repeat split; reflexivity|].
  intros M0. destruct (se3_write_read M M0 (vzero 12) eq_refl) as (w & N & E1 & _ & E2 & S). exists N. unfold se3_write in E1. cbn [vzero vlen Nat.eqb] in E1. injection E1 as <-. split; assumption.
Qed.
(** Without a reference the trajectory is empty. *)
Lemma euc_default ops : Forall outside ops -> last_ref None ops = None -> exists s, run euc_step (euc_new None) ops = Some s /\
  (forall q, sampled q -> exists a, euc_step s (EAsk q) = Ret s (Got a) /\ vlen (t_val a) = 0 /\ vlen (t_der a) = 0 /\ vlen (t_sec a) = 0) /\ euc_step s (EAsk QSize) = Ret s (Size 0).
Proof.
  intros F L. destruct (euc_run None ops F) as (s & E & ->). rewrite L in E. exists (euc_new None). split; [exact E|]. split; [|reflexivity].
  intros q Q. eexists. split; [destruct q; try contradiction; reflexivity|]. repeat split; reflexivity.
Qed.
(** A reference taken from the trajectory itself is erased. *)
Lemma euc_own_erased r ops v : Forall outside ops -> last_ref r ops = Some v -> exists s s', run euc_step (euc_new r) ops = Some s /\ euc_step s (ESetOwn 0 (vlen v)) = Ret s' Done /\ constant_sample (vzero (vlen v)) (vlen v) s'.
Proof.
  intros F L. destruct (euc_run r ops F) as (s & E & ->). rewrite L in E. exists (euc_new (Some v)), (sample_resize (vlen v) (vlen v)). split; [exact E|]. split.
  - cbn [euc_step euc_new euc_set t_val]. rewrite Nat.add_0_l, Nat.leb_refl, Nat.eqb_refl. reflexivity.
  - repeat split; reflexivity.
Qed.
(** A part of it is read after it was freed. *)
Lemma euc_own_part r ops v off len : Forall outside ops -> last_ref r ops = Some v -> off + len <= vlen v -> 0 < len < vlen v -> exists s, run euc_step (euc_new r) ops = Some s /\ euc_step s (ESetOwn off len) = Undef.
Proof.
  intros F L H1 H2. destruct (euc_run r ops F) as (s & E & ->). rewrite L in E. exists (euc_new (Some v)). split; [exact E|]. cbn [euc_step euc_new euc_set t_val].
  assert (X : (off + len <=? vlen v) = true) by (apply Nat.leb_le; exact H1). assert (Y : (len =? vlen v) = false) by (apply Nat.eqb_neq; lia). assert (Z : (len =? 0) = false) by (apply Nat.eqb_neq; lia). rewrite X, Y, Z. reflexivity.
Qed.
(** A trajectory in SE3 made without placement returns a rotation of zeros. *)
Lemma se3_default ops : last_place None ops = None -> exists s, run se3_step (se3_new None) ops = Some s /\ forall M0, exists N, se3_read (t_val s) M0 = Ret N tt /\ forall i j, fst N i j = n0.
Proof.
  intros L. destruct (se3_run None ops) as (s & E & ->). rewrite L in E. exists (se3_new None). split; [exact E|]. intros M0. eexists. split; [reflexivity|]. intros i j. reflexivity.
Qed.
End CP.
