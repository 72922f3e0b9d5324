(** Proofs about the measured forces. *)
From Coq Require Import List Arith Bool Reals Lia Lra.
From Verif Require Import Scalar Outcome Linalg RSum FrameTasks FrameTasksR MeasuredForces.
Import ListNotations.
Open Scope list_scope.
Open Scope nat_scope.

(** * Specification *)
(** Last force and frame set by the user. *)
Definition heard (l : list (eop Rnum)) : rvec * bool :=
  fold_left (fun w o => match o with EForce f => (f, snd w) | ELocal b => (fst w, b) | ECompute _ => w end) l (fun _ => 0%R, true).
(** The frame is moved by the joints of [sup] and by no other. *)
Definition moved_by (sup : nat -> bool) (d : jdata Rnum) : Prop :=
  (forall c, f_sup d c = sup c) /\ forall r c, sup c = false -> f_J d r c = 0%R.
Definition same_chain (sup : nat -> bool) (o : eop Rnum) : Prop := match o with ECompute d => moved_by sup d | _ => True end.
(** Velocity of the frame (linear, then angular) in its own axes for joint velocities [v]. *)
Definition twist (nv : nat) (d : jdata Rnum) (v : rvec) : rvec := fun i => rsum nv (fun c => f_J d i c * v c)%R.
Definition dot3r (x y : rvec) : R := (x 0%nat * y 0%nat + x 1%nat * y 1%nat + x 2%nat * y 2%nat)%R.
(** Power of a force or wrench [f] given in the axes of the frame or of the world. *)
Definition power3 (loc : bool) (d : jdata Rnum) (f u : rvec) : R := dot3r f (if loc then u else rot (f_R d) u).
Definition power6 (loc : bool) (d : jdata Rnum) (f u : rvec) : R :=
  (power3 loc d f u + power3 loc d (ang f) (ang u))%R.

(** * Power *)
Lemma rsum6 (f : nat -> R) : rsum 6 f = (f 0%nat + f 1%nat + f 2%nat + f 3%nat + f 4%nat + f 5%nat)%R.
Proof. rewrite !rsum_S, rsum_0. lra. Qed.
Lemma tmul_power n nv (J : rmat) (f v : rvec) : rsum nv (fun c => vget (@tmul Rnum n nv J f) c * v c)%R = rsum n (fun r => f r * rsum nv (fun c => J r c * v c))%R.
Proof.
  transitivity (rsum nv (fun c => rsum n (fun r => f r * (J r c * v c))%R)).
  - apply rsum_ext. intros c _. cbn [tmul vget]. rewrite <- rsum_scal_r. apply rsum_ext. intros r _. (cbn [Rnum nmul car]; ring).
  - rewrite rsum_swap. apply rsum_ext. intros r _. rewrite rsum_scal. reflexivity.
Qed.
(** Rotating the columns rotates the velocity. *)
Lemma twist_lin nv (Q J : rmat) (v : rvec) i : i < 3 -> rsum nv (fun c => @act_mat Rnum Q J i c * v c)%R = rot Q (fun r => rsum nv (fun c => J r c * v c)%R) i.
Proof.
  intros Hi. unfold rot. rewrite <- !rsum_scal, <- !rsum_plus. apply rsum_ext. intros c _. unfold act_mat. rewrite act_lin by exact Hi. unfold rot. ring.
Qed.
Lemma twist_ang nv (Q J : rmat) (v : rvec) i : i < 3 -> rsum nv (fun c => @act_mat Rnum Q J (3 + i)%nat c * v c)%R = rot Q (ang (fun r => rsum nv (fun c => J r c * v c)%R)) i.
Proof.
  intros Hi. unfold rot, ang. rewrite <- !rsum_scal, <- !rsum_plus. apply rsum_ext. intros c _. unfold act_mat. rewrite act_ang by exact Hi. unfold rot, ang. ring.
Qed.

(** * Columns of other joints stay zero *)
Definition clear_cols (sup : nat -> bool) (J : rmat) : Prop := forall r c, sup c = false -> J r c = 0%R.
Lemma fill_clear sup d (J : rmat) : moved_by sup d -> clear_cols sup J -> forall r c, @fill Rnum d J r c = f_J d r c.
Proof. intros [H1 H2] C r c. unfold fill. rewrite H1. destruct (sup c) eqn:E; [reflexivity|]. rewrite C, H2 by exact E. reflexivity. Qed.
Lemma act_zero (Q : rmat) (x : rvec) i : (forall k, x k = 0%R) -> @act Rnum Q x i = 0%R.
Proof. intros H. unfold act. destruct (i <? 3); apply rsum_zero; intros k _; rewrite H; (cbn [Rnum nmul car]; ring). Qed.
Lemma act_clear sup (Q J : rmat) : clear_cols sup J -> clear_cols sup (@act_mat Rnum Q J).
Proof. intros C r c E. unfold act_mat. apply act_zero. intros k. apply C. exact E. Qed.
Lemma act_mat_ext (Q J J' : rmat) r c : (forall r c, J r c = J' r c) -> @act_mat Rnum Q J r c = @act_mat Rnum Q J' r c.
Proof. intros H. unfold act_mat, act. destruct (r <? 3); apply rsum_ext; intros k _; rewrite H; reflexivity. Qed.

Section H.
Variables (six : bool) (sup : nat -> bool) (nv : nat).
Lemma meas_inv l : Forall (same_chain sup) l -> exists s, run (@meas_step Rnum six) (meas_new nv) l = Some s /\
  e_nv s = nv /\ (e_f s, e_local s) = heard l /\ clear_cols sup (e_J s).
Proof.
  induction l as [|o l IH] using rev_ind; intros F.
  - exists (meas_new nv). split; [reflexivity|]. split; [reflexivity|]. split; [reflexivity|]. intros r c _. reflexivity.
  - apply Forall_app in F as [F1 F2]. inversion F2 as [|? ? F3 _]; subst. destruct (IH F1) as (s & R & N & W & C).
    rewrite run_app, R. unfold heard. rewrite fold_left_app. fold (heard l). rewrite <- W. cbn [fold_left fst snd].
    destruct o as [f|b|d]; cbn [run meas_step after].
    + eexists. split; [reflexivity|]. repeat split; try exact N; exact C.
    + eexists. split; [reflexivity|]. repeat split; try exact N; exact C.
    + eexists. split; [reflexivity|]. cbn [same_chain] in F3. destruct six; cbn [m6_compute m3_compute e_nv e_f e_local e_J].
      * split; [exact N|]. split; [reflexivity|].
        assert (X : clear_cols sup (@fill Rnum d (e_J s))) by (intros r c E; rewrite (fill_clear sup d _ F3 C); apply F3; exact E).
        destruct (e_local s); [exact X|apply act_clear; exact X].
      * split; [exact N|]. split; [reflexivity|].
        assert (Z : clear_cols sup (fun _ _ => 0%R)) by (intros r c _; reflexivity).
        assert (X : clear_cols sup (@fill Rnum d (fun _ _ => 0%R))) by (intros r c E; rewrite (fill_clear sup d _ F3 Z); apply F3; exact E).
        destruct (e_local s); [exact X|apply act_clear; exact X].
Qed.
Definition power (d : jdata Rnum) (w : rvec * bool) (u : rvec) : R := (if six then power6 else power3) (snd w) d (fst w) u.
Theorem meas_history l d : Forall (same_chain sup) l -> moved_by sup d ->
  exists s s' tau, run (@meas_step Rnum six) (meas_new nv) l = Some s /\ e_f s = fst (heard l) /\
    meas_step six s (ECompute d) = Ret s' (Some tau) /\ e_f s' = fst (heard l) /\ vlen tau = nv /\
    forall v, rsum nv (fun c => vget tau c * v c)%R = power d (heard l) (twist nv d v).
Proof.
  intros F M. destruct (meas_inv l F) as (s & R & N & W & C). exists s. cbn [meas_step]. do 2 eexists. split; [exact R|].
  split; [rewrite <- W; reflexivity|]. split; [reflexivity|]. rewrite <- W. cbn [fst snd].
  split; [destruct six; reflexivity|]. split; [destruct six; exact N|]. intros v. unfold power. cbn [fst snd].
  destruct six; cbn [m6_compute m3_compute e_tau]; rewrite N, tmul_power.
  - assert (X : forall r c, @fill Rnum d (e_J s) r c = f_J d r c) by (apply (fill_clear sup); assumption).
    rewrite rsum6. unfold power6, power3, dot3r, ang. destruct (e_local s).
    + unfold twist. rewrite !(rsum_ext nv (fun c => @fill Rnum d (e_J s) _ c * v c)%R (fun c => f_J d _ c * v c)%R) by (intros; rewrite X; reflexivity). cbn. lra.
    + pose proof (twist_lin nv (f_R d) (@fill Rnum d (e_J s)) v) as TL. pose proof (twist_ang nv (f_R d) (@fill Rnum d (e_J s)) v) as TA.
      assert (TW : forall r, rsum nv (fun c => @fill Rnum d (e_J s) r c * v c)%R = twist nv d v r) by (intros r; apply rsum_ext; intros c _; rewrite X; reflexivity).
      pose proof (TA 0 ltac:(lia)) as A0. pose proof (TA 1 ltac:(lia)) as A1. pose proof (TA 2 ltac:(lia)) as A2. cbn [Nat.add] in A0, A1, A2.
      rewrite (TL 0), (TL 1), (TL 2), A0, A1, A2 by lia. unfold rot, ang. rewrite !TW. cbn. lra.
  - assert (X : forall r c, @fill Rnum d (fun _ _ => 0%R) r c = f_J d r c) by (apply (fill_clear sup); [assumption|intros r c _; reflexivity]).
    rewrite rsum3. unfold power3, dot3r. destruct (e_local s).
    + unfold twist. change (@n0 Rnum) with 0%R. rewrite !(rsum_ext nv (fun c => @fill Rnum d (fun _ _ => 0%R) _ c * v c)%R (fun c => f_J d _ c * v c)%R) by (intros; rewrite X; reflexivity). reflexivity.
    + change (@n0 Rnum) with 0%R. pose proof (twist_lin nv (f_R d) (@fill Rnum d (fun _ _ => 0%R)) v) as TL.
      assert (TW : forall r, rsum nv (fun c => @fill Rnum d (fun _ _ => 0%R) r c * v c)%R = twist nv d v r) by (intros r; apply rsum_ext; intros c _; rewrite X; reflexivity).
      rewrite (TL 0), (TL 1), (TL 2) by lia. unfold rot. rewrite !TW. reflexivity.
Qed.
End H.

(** * Axes *)
(** [g] is [f] in world axes. *)
Definition in_world (six : bool) (d : jdata Rnum) (f g : rvec) : Prop :=
  forall i, i < 3 -> g i = rot (f_R d) f i /\ (six = true -> ang g i = rot (f_R d) (ang f) i).
Lemma dot_rot (Q : rmat) (x y : rvec) : orthogonal Q -> dot3r (rot Q x) (rot Q y) = dot3r x y.
Proof.
  intros O. transitivity (dot3r x (rot (tr Q) (rot Q y))); [unfold dot3r, rot, tr; ring|].
  unfold dot3r. rewrite (proj2 (O y 0 ltac:(lia))), (proj2 (O y 1 ltac:(lia))), (proj2 (O y 2 ltac:(lia))). reflexivity.
Qed.
Lemma dot_ext (x x' y : rvec) : (forall i, i < 3 -> x i = x' i) -> dot3r x y = dot3r x' y.
Proof. intros H. unfold dot3r. rewrite !H by lia. reflexivity. Qed.
Lemma power_axes six (d : jdata Rnum) (f g u : rvec) : orthogonal (f_R d) -> in_world six d f g -> power six d (g, false) u = power six d (f, true) u.
Proof.
  intros O W. unfold power. cbn [fst snd].
  assert (A : power3 false d g u = power3 true d f u).
  { unfold power3. rewrite (dot_ext g (rot (f_R d) f)) by (intros i Hi; apply W; exact Hi). apply dot_rot. exact O. }
  destruct six; [|exact A]. unfold power6. rewrite A. f_equal. unfold power3.
  rewrite (dot_ext (ang g) (rot (f_R d) (ang f))) by (intros i Hi; apply W; [exact Hi|reflexivity]). apply dot_rot. exact O.
Qed.
Theorem meas_axes six sup nv l1 l2 (d : jdata Rnum) (f g : rvec) s1 s2 s1' s2' t1 t2 :
  Forall (same_chain sup) l1 -> Forall (same_chain sup) l2 -> moved_by sup d -> orthogonal (f_R d) ->
  heard l1 = (f, true) -> heard l2 = (g, false) -> in_world six d f g ->
  run (@meas_step Rnum six) (meas_new nv) l1 = Some s1 -> run (@meas_step Rnum six) (meas_new nv) l2 = Some s2 ->
  meas_step six s1 (ECompute d) = Ret s1' (Some t1) -> meas_step six s2 (ECompute d) = Ret s2' (Some t2) ->
  forall c, c < nv -> vget t1 c = vget t2 c.
Proof.
  intros F1 F2 M O H1 H2 W R1 R2 E1 E2 c Hc.
  destruct (meas_history six sup nv l1 d F1 M) as (a1 & b1 & u1 & A1 & _ & B1 & _ & _ & P1).
  destruct (meas_history six sup nv l2 d F2 M) as (a2 & b2 & u2 & A2 & _ & B2 & _ & _ & P2).
  rewrite R1 in A1. injection A1 as <-. rewrite R2 in A2. injection A2 as <-.
  rewrite E1 in B1. injection B1 as <- <-. rewrite E2 in B2. injection B2 as <- <-.
  assert (U : forall t : vec Rnum, rsum nv (fun k => vget t k * (if k =? c then 1 else 0))%R = vget t c).
  { intros t. rewrite (rsum_single nv c); [rewrite Nat.eqb_refl; apply Rmult_1_r|exact Hc|].
    intros k _ N. apply Nat.eqb_neq in N. rewrite N. apply Rmult_0_r. }
  rewrite <- (U t1), <- (U t2). rewrite P1, P2, H1, H2. symmetry. apply power_axes; assumption.
Qed.
