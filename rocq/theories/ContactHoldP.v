(** Contacts in closed loop: a contact that starts on its placement, at rest, stays there whatever
    the gains, and one that starts off it returns. *)
From Coq Require Import String List Arith Bool ZArith Reals Lia Lra.
From Verif Require Import Scalar Outcome Linalg Constraint FormPhysSpec RSum Masks MaskReal FrameTasks FrameTasksP FrameTasksR.
From Verif Require Import ContactMotion ContactMotionP LinearLoop ClosedLoop RotLoop RotLoop2 OrientLoop ContactHold.
Import ListNotations.
Open Scope list_scope.
Open Scope nat_scope.

(** * Closed loops *)
(** At every time the contact was built and given some calls, of which the wish [w] results, then
    compute was called with the robot's data, and the accelerations satisfy the rows. *)
Definition point_runs (log3 : rmat -> rvec) (name : string) (nv : nat) (w : wish) (d : R -> fdata Rnum) (y : R -> nat -> R) : Prop :=
  forall t, (0 <= t)%R -> orthogonal (d_R (d t)) /\ exists jk jk' l s0 s s', point_new Rtrunc log3 jk jk' name nv = Some s0 /\ run (point_step Rtrunc log3) s0 l = Some s /\
    told false l = w /\ point_step Rtrunc log3 s (MCompute (d t)) = Ret s' tt /\ sat (h_c (x_h s')) (y t).
Definition six_runs (log3 : rmat -> rvec) (name : string) (nv : nat) (w : wish) (d : R -> fdata Rnum) (y : R -> nat -> R) : Prop :=
  forall t, (0 <= t)%R -> proper (d_R (d t)) /\ exists jk l s0 s s', six_new Rtrunc jk name nv = Some s0 /\ run (six_step Rtrunc log3) s0 l = Some s /\
    told true l = w /\ six_step Rtrunc log3 s (MCompute (d t)) = Ret s' tt /\ sat (h_c (x_h s')) (y t).
Definition two_runs (log3 : rmat -> rvec) (name : string) (nv : nat) (w : rvec * rvec) (d1 d2 : R -> fdata Rnum) (y : R -> nat -> R) : Prop :=
  forall t, (0 <= t)%R -> orthogonal (d_R (d1 t)) /\ exists jk jk' l s0 s s', Forall three_gains l /\ two_new Rtrunc log3 jk jk' name nv = Some s0 /\ run (two_step Rtrunc log3) s0 l = Some s /\
    told2 l = w /\ two_step Rtrunc log3 s (WCompute (d1 t) (d2 t)) = Ret s' tt /\ sat (h_c (y_h s')) (y t).
(** The frame moves as its data and the accelerations say (world axes): position. The orientation
    is [frame_spins] of OrientLoop.v. *)
Definition world_v (d : fdata Rnum) : rvec := rot (d_R d) (d_v d).
Definition world_w (d : fdata Rnum) : rvec := rot (d_R d) (ang (d_v d)).
Definition frame_moves (nv : nat) (d : R -> fdata Rnum) (y : R -> nat -> R) : Prop := forall i, i < 3 ->
  twice (fun t => d_p (d t) i) (fun t => world_v (d t) i) (fun t => rot (d_R (d t)) (accel nv (d_J (d t)) (d_a (d t)) (y t)) i).

(** * The laws along the motion *)
Lemma point_laws log3 name nv w d y : reads9 log3 -> point_runs log3 name nv w d y -> forall t, (0 <= t)%R -> orthogonal (d_R (d t)) /\ holds_point w (d t) (accel nv (d_J (d t)) (d_a (d t)) (y t)).
Proof.
  intros HL H t Ht. destruct (H t Ht) as (O & jk & jk' & l & s0 & s & s' & E0 & E & W & E' & HS). split; [exact O|].
  destruct (point_history log3 HL name nv jk jk' l) as (s0' & s1 & F0 & F & _ & _ & G). rewrite E0 in F0. injection F0 as <-. rewrite E in F. injection F as <-.
  destruct (G (d t)) as (s2 & F' & _ & _ & M). rewrite E' in F'. injection F' as <-. rewrite W in M. apply M; [auto|exact HS].
Qed.
Lemma six_laws log3 name nv w d y : reads9 log3 -> six_runs log3 name nv w d y -> forall t, (0 <= t)%R -> proper (d_R (d t)) /\ holds_frame log3 w (d t) (accel nv (d_J (d t)) (d_a (d t)) (y t)).
Proof.
  intros HL H t Ht. destruct (H t Ht) as (O & jk & l & s0 & s & s' & E0 & E & W & E' & HS). split; [exact O|].
  destruct (six_history log3 HL name nv jk l) as (s0' & s1 & F0 & F & _ & _ & G). rewrite E0 in F0. injection F0 as <-. rewrite E in F. injection F as <-.
  destruct (G (d t)) as (s2 & F' & _ & _ & M). rewrite E' in F'. injection F' as <-. rewrite W in M. apply M. exact HS.
Qed.
Lemma two_laws log3 name nv w d1 d2 y : reads9 log3 -> two_runs log3 name nv w d1 d2 y -> forall t, (0 <= t)%R ->
  holds_together w (d1 t) (d2 t) (accel nv (d_J (d1 t)) (d_a (d1 t)) (y t)) (accel nv (d_J (d2 t)) (d_a (d2 t)) (y t)).
Proof.
  intros HL H t Ht. destruct (H t Ht) as (O & jk & jk' & l & s0 & s & s' & TG & E0 & E & W & E' & HS).
  destruct (two_history log3 HL name nv jk jk' l TG) as (s0' & s1 & F0 & F & _ & _ & G). rewrite E0 in F0. injection F0 as <-. rewrite E in F. injection F as <-.
  destruct (G (d1 t) (d2 t)) as (s2 & F' & _ & _ & M). rewrite E' in F'. injection F' as <-. rewrite W in M. apply M; [exact O|exact HS].
Qed.

(** * Identity axes *)
Definition idm : rmat := fun i j => if i =? j then 1%R else 0%R.
Lemma idm_rot x i : i < 3 -> rot (tr idm) x i = x i.
Proof. intros Hi. unfold rot, tr, idm. destruct i as [|[|[|i]]]; [| | |lia]; cbn [Nat.eqb]; lra. Qed.
Lemma idm_orth : orthogonal idm.
Proof. intros x i Hi. assert (H : forall z j, j < 3 -> rot idm z j = z j) by (intros z j Hj; unfold rot, idm; destruct j as [|[|[|j]]]; [| | |lia]; cbn [Nat.eqb]; lra). rewrite H, !idm_rot, ?H by assumption. split; reflexivity. Qed.

(** * Held *)
Lemma local_held nv (kp kd pd : rvec) (d : R -> fdata Rnum) y :
  (forall t, (0 <= t)%R -> orthogonal (d_R (d t)) /\ forall i, i < 3 ->
     accel nv (d_J (d t)) (d_a (d t)) (y t) i = (kp i * rot (tr (d_R (d t))) (vminus pd (d_p (d t))) i - kd i * d_v (d t) i)%R) ->
  frame_moves nv d y -> (forall i, i < 3 -> d_p (d 0%R) i = pd i /\ d_v (d 0%R) i = 0%R) ->
  forall t, (0 <= t)%R -> forall i, i < 3 -> d_p (d t) i = pd i /\ d_v (d t) i = 0%R.
Proof.
  intros L M Z t Ht.
  assert (K : forall t, (0 <= t)%R -> forall i, i < 3 -> vminus pd (d_p (d t)) i = 0%R /\ world_v (d t) i = 0%R).
  { apply (lin_held (fun u => d_R (d u)) kp kd (fun u => vminus pd (d_p (d u))) (fun u => world_v (d u)) (fun u => rot (d_R (d u)) (accel nv (d_J (d u)) (d_a (d u)) (y u)))).
    - intros u Hu. apply (L u Hu).
    - intros u Hu i Hi. destruct (M i Hi u Hu) as [A B]. split; [|exact B]. eapply deriv_val; [apply (deriv_minus (fun _ => pd i) (fun u => d_p (d u) i)); [apply deriv_const|exact A]|]. cbv beta. lra.
    - intros u Hu i Hi. destruct (L u Hu) as [O W]. unfold world_v. rewrite (proj2 (O _ i Hi)), (proj2 (O _ i Hi)). apply W. exact Hi.
    - intros i Hi. unfold vminus. rewrite (proj1 (Z i Hi)). lra.
    - intros i Hi. unfold world_v. apply rot_zero. intros k Hk. apply (Z k Hk). }
  assert (V : forall i, i < 3 -> d_v (d t) i = (fun _ => 0%R) i).
  { apply (rot_inj (d_R (d t))); [apply (L t Ht)|]. intros i Hi. rewrite (rot_zero _ (fun _ => 0%R)) by reflexivity. apply (K t Ht i Hi). }
  intros i Hi. split; [|apply (V i Hi)]. destruct (K t Ht i Hi) as [A _]. unfold vminus in A. lra.
Qed.
Lemma world_held nv (kp kd pd : rvec) (d : R -> fdata Rnum) y :
  (forall t, (0 <= t)%R -> orthogonal (d_R (d t)) /\ forall i, i < 3 ->
     rot (d_R (d t)) (accel nv (d_J (d t)) (d_a (d t)) (y t)) i = (kp i * (pd i - d_p (d t) i) - kd i * rot (d_R (d t)) (d_v (d t)) i)%R) ->
  frame_moves nv d y -> (forall i, i < 3 -> d_p (d 0%R) i = pd i /\ d_v (d 0%R) i = 0%R) ->
  forall t, (0 <= t)%R -> forall i, i < 3 -> d_p (d t) i = pd i /\ d_v (d t) i = 0%R.
Proof.
  intros L M Z t Ht.
  assert (K : forall t, (0 <= t)%R -> forall i, i < 3 -> vminus pd (d_p (d t)) i = 0%R /\ world_v (d t) i = 0%R).
  { apply (lin_held (fun _ => idm) kp kd (fun u => vminus pd (d_p (d u))) (fun u => world_v (d u)) (fun u => rot (d_R (d u)) (accel nv (d_J (d u)) (d_a (d u)) (y u)))).
    - intros _ _. exact idm_orth.
    - intros u Hu i Hi. destruct (M i Hi u Hu) as [A B]. split; [|exact B]. eapply deriv_val; [apply (deriv_minus (fun _ => pd i) (fun u => d_p (d u) i)); [apply deriv_const|exact A]|]. cbv beta. lra.
    - intros u Hu i Hi. destruct (L u Hu) as [_ W]. rewrite !idm_rot by exact Hi. rewrite (W i Hi). reflexivity.
    - intros i Hi. unfold vminus. rewrite (proj1 (Z i Hi)). lra.
    - intros i Hi. unfold world_v. apply rot_zero. intros k Hk. apply (Z k Hk). }
  assert (V : forall i, i < 3 -> d_v (d t) i = (fun _ => 0%R) i).
  { apply (rot_inj (d_R (d t))); [apply (L t Ht)|]. intros i Hi. rewrite (rot_zero _ (fun _ => 0%R)) by reflexivity. apply (K t Ht i Hi). }
  intros i Hi. split; [|apply (V i Hi)]. destruct (K t Ht i Hi) as [A _]. unfold vminus in A. lra.
Qed.
Theorem point_held log3 name nv w d y : reads9 log3 -> point_runs log3 name nv w d y -> frame_moves nv d y ->
  (forall i, i < 3 -> d_p (d 0%R) i = u_p w i /\ d_v (d 0%R) i = 0%R) ->
  forall t, (0 <= t)%R -> forall i, i < 3 -> d_p (d t) i = u_p w i /\ d_v (d t) i = 0%R.
Proof.
  intros HL H M. assert (L := point_laws _ _ _ _ _ _ HL H). unfold holds_point in L. destruct (u_local w).
  - exact (local_held nv (u_kp w) (u_kd w) (u_p w) d y L M).
  - exact (world_held nv (u_kp w) (u_kd w) (u_p w) d y L M).
Qed.
Theorem six_held log3 name nv w d y : reads9 log3 -> principal log3 -> proper (u_R w) -> six_runs log3 name nv w d y -> frame_moves nv d y -> frame_spins nv d y ->
  (forall i, i < 3 -> d_p (d 0%R) i = u_p w i /\ forall j, j < 3 -> d_R (d 0%R) i j = u_R w i j) -> (forall i, i < 6 -> d_v (d 0%R) i = 0%R) ->
  forall t, (0 <= t)%R -> (forall i, i < 3 -> d_p (d t) i = u_p w i /\ forall j, j < 3 -> d_R (d t) i j = u_R w i j) /\ (forall i, i < 6 -> d_v (d t) i = 0%R).
Proof.
  intros HL HP HB H M S Z V t Ht. assert (L := six_laws _ _ _ _ _ _ HL H).
  assert (P : forall i, i < 3 -> d_p (d t) i = u_p w i /\ d_v (d t) i = 0%R).
  { apply (local_held nv (u_kp w) (u_kd w) (u_p w) d y); [|exact M| |exact Ht].
    - intros u Hu. destruct (L u Hu) as [[O _] [W _]]. split; [exact O|exact W].
    - intros i Hi. split; [apply (Z i Hi)|apply V; lia]. }
  destruct (ang_held log3 (fun u => d_R (d u)) (u_R w) (fun i => u_kp w (3 + i)) (fun i => u_kd w (3 + i)) (fun u => world_w (d u))
    (fun u => rot (d_R (d u)) (ang (accel nv (d_J (d u)) (d_a (d u)) (y u)))) HP) with (t := t) as [A W].
  - intros u Hu. apply (L u Hu).
  - exact HB.
  - exact S.
  - intros u Hu i Hi. destruct (L u Hu) as [[O _] [_ G]]. unfold world_w. rewrite (proj2 (O _ i Hi)), (proj2 (O _ i Hi)). apply G. exact Hi.
  - apply (same_apart (fun u => d_R (d u)) (fun _ => u_R w)); [apply (L 0%R (Rle_refl 0))|]. intros i j Hi Hj. apply (Z i Hi). exact Hj.
  - intros i Hi. unfold world_w. apply rot_zero. intros k Hk. unfold ang. apply V. lia.
  - exact Ht.
  - split.
    + intros i Hi. split; [apply (P i Hi)|]. intros j Hj. exact (apart_same (fun u => d_R (d u)) (fun _ => u_R w) t (proj1 (L t Ht)) HB A i j Hi Hj).
    + intros i Hi. destruct (Nat.lt_ge_cases i 3) as [I|I]; [apply (P i I)|].
      assert (X : forall k, k < 3 -> ang (d_v (d t)) k = (fun _ => 0%R) k).
      { apply (rot_inj (d_R (d t))); [apply (proj1 (L t Ht))|]. intros k Hk. rewrite (rot_zero _ (fun _ => 0%R)) by reflexivity. apply (W k Hk). }
      specialize (X (i - 3) ltac:(lia)). unfold ang in X. replace (3 + (i - 3)) with i in X by lia. exact X.
Qed.
Theorem two_held log3 name nv w d1 d2 y : reads9 log3 -> two_runs log3 name nv w d1 d2 y -> frame_moves nv d1 y -> frame_moves nv d2 y ->
  (forall i, i < 3 -> d_p (d1 0%R) i = d_p (d2 0%R) i /\ world_v (d1 0%R) i = world_v (d2 0%R) i) ->
  forall t, (0 <= t)%R -> forall i, i < 3 -> d_p (d1 t) i = d_p (d2 t) i /\ world_v (d1 t) i = world_v (d2 t) i.
Proof.
  intros HL H M1 M2 Z t Ht i Hi. assert (L := two_laws _ _ _ _ _ _ _ HL H).
  destruct (lin_held (fun _ => idm) (fst w) (snd w) (fun u => vminus (d_p (d2 u)) (d_p (d1 u))) (fun u => vminus (world_v (d1 u)) (world_v (d2 u)))
    (fun u => vminus (rot (d_R (d1 u)) (accel nv (d_J (d1 u)) (d_a (d1 u)) (y u))) (rot (d_R (d2 u)) (accel nv (d_J (d2 u)) (d_a (d2 u)) (y u))))) with (t := t) (i := i) as [A B].
  - intros _ _. exact idm_orth.
  - intros u Hu k Hk. destruct (M1 k Hk u Hu) as [A1 B1], (M2 k Hk u Hu) as [A2 B2]. split; [|apply (deriv_minus _ _ _ _ _ B1 B2)].
    eapply deriv_val; [apply (deriv_minus _ _ _ _ _ A2 A1)|]. unfold vminus. cbv beta. lra.
  - intros u Hu k Hk. rewrite !idm_rot by exact Hk. unfold vminus. rewrite (L u Hu k Hk). unfold world_v. lra.
  - intros k Hk. unfold vminus. rewrite (proj1 (Z k Hk)). lra.
  - intros k Hk. unfold vminus. rewrite (proj2 (Z k Hk)). lra.
  - exact Ht.
  - exact Hi.
  - unfold vminus in A, B. split; lra.
Qed.

(** * Returning *)
Lemma still_twice (c : R) : twice (fun _ => c) (fun _ => 0%R) (fun _ => 0%R).
Proof. intros t _. split; apply deriv_const. Qed.
Lemma rot_lin3 (Q : rmat) (x y : rvec) a b i : rot Q (fun k => (a * x k - b * y k)%R) i = (a * rot Q x i - b * rot Q y i)%R.
Proof. unfold rot. ring. Qed.
(** Equal gains on the three axes: then the axes do not matter. *)
Lemma local_equal nv kp kd (w : wish) (d : fdata Rnum) y : orthogonal (d_R d) -> (forall i, i < 3 -> u_kp w i = kp /\ u_kd w i = kd) ->
  (forall i, i < 3 -> accel nv (d_J d) (d_a d) y i = (u_kp w i * rot (tr (d_R d)) (vminus (u_p w) (d_p d)) i - u_kd w i * d_v d i)%R) -> forall i, i < 3 ->
  rot (d_R d) (accel nv (d_J d) (d_a d) y) i = (kp * (u_p w i - d_p d i) + kd * (0 - world_v d i) + 0)%R.
Proof.
  intros O G L i Hi. rewrite (rot_ext _ _ (fun k => (kp * rot (tr (d_R d)) (vminus (u_p w) (d_p d)) k - kd * d_v d k)%R) i).
  2:{ intros k Hk. rewrite (L k Hk), (proj1 (G k Hk)), (proj2 (G k Hk)). reflexivity. }
  rewrite rot_lin3, (proj1 (O _ i Hi)). unfold world_v, vminus. lra.
Qed.
Definition even_gains (w : wish) (kp kd : R) : Prop := forall i, i < 3 -> u_kp w i = kp /\ u_kd w i = kd.
(** Position error [e] with velocity [v]. *)
Theorem point_returns kp kd : (0 < kp)%R -> (0 < kd)%R -> exists c r, (0 < r)%R /\
  forall log3 name nv w d y i, reads9 log3 -> i < 3 -> point_runs log3 name nv w d y -> frame_moves nv d y ->
    (if u_local w then even_gains w kp kd else u_kp w i = kp /\ u_kd w i = kd) ->
    decays c r (fun t => d_p (d t) i - u_p w i)%R (fun t => world_v (d t) i).
Proof.
  intros P D. destruct (pd_decays kp kd P D) as (c & r & R0 & _ & H). exists c, r. split; [exact R0|].
  intros log3 name nv w d y i HL Hi L M G. assert (W := point_laws _ _ _ _ _ _ HL L).
  assert (K : decays c r (fun t => d_p (d t) i - u_p w i)%R (fun t => world_v (d t) i - 0)%R).
  { apply H. eapply (tracking_motion kp kd (fun t => d_p (d t) i) (fun t => world_v (d t) i) _ (fun _ => u_p w i) (fun _ => 0%R) (fun _ => 0%R)); [exact (M i Hi)|apply still_twice|].
    intros t Ht. destruct (W t Ht) as [O Q]. unfold holds_point in Q. destruct (u_local w).
    - apply (local_equal nv kp kd w); assumption.
    - rewrite (Q i Hi), (proj1 G), (proj2 G). unfold world_v. lra. }
  intros t Ht. destruct (K t Ht) as [A B]. rewrite !Rminus_0_r in *. split; assumption.
Qed.
Theorem two_returns kp kd : (0 < kp)%R -> (0 < kd)%R -> exists c r, (0 < r)%R /\
  forall log3 name nv w d1 d2 y i, reads9 log3 -> i < 3 -> two_runs log3 name nv w d1 d2 y -> frame_moves nv d1 y -> frame_moves nv d2 y -> fst w i = kp -> snd w i = kd ->
    decays c r (fun t => d_p (d1 t) i - d_p (d2 t) i)%R (fun t => world_v (d1 t) i - world_v (d2 t) i)%R.
Proof.
  intros P D. destruct (pd_decays kp kd P D) as (c & r & R0 & _ & H). exists c, r. split; [exact R0|].
  intros log3 name nv w d1 d2 y i HL Hi L M1 M2 KP KD. assert (W := two_laws _ _ _ _ _ _ _ HL L). apply H.
  eapply tracking_motion; [exact (M1 i Hi)|exact (M2 i Hi)|]. intros t Ht. assert (Q := W t Ht i Hi). rewrite KP, KD in Q. unfold world_v. lra.
Qed.
(** Position gains all [kp], [kd]; orientation gains all [kq], [kw]; less than a half turn off. *)
Theorem six_returns kp kd kq kw m : (0 < kp -> 0 < kd -> 0 < kq -> 0 < kw -> 0 <= m < PI -> exists c r c' r', 0 < r /\ 0 < r' /\
  forall log3 name nv w d y, reads9 log3 -> principal log3 -> proper (u_R w) -> six_runs log3 name nv w d y -> frame_moves nv d y -> frame_spins nv d y ->
    even_gains w kp kd -> (forall i, (i < 3)%nat -> u_kp w (3 + i)%nat = kq /\ u_kd w (3 + i)%nat = kw) ->
    let A := fun t => d_R (d t) in let B := fun _ : R => u_R w in let still := fun (_ : R) (_ : nat) => 0 in
    (forall i, (i < 3)%nat -> decays c r (fun t => d_p (d t) i - u_p w i) (fun t => world_v (d t) i)) /\
    (kq * (apart A B 0 * apart A B 0) + speed2 (fun t => world_w (d t)) still 0 <= kq * (m * m) -> aligns c' r' m A B (fun t => world_w (d t)) still))%R.
Proof.
  intros P D PQ DW Mm. destruct (pd_decays kp kd P D) as (c & r & R0 & _ & H). destruct (law_constants kq kw m 0 PQ DW Mm (Rle_refl 0)) as (c' & r' & R0' & _ & H').
  exists c, r, c', r'. split; [exact R0|]. split; [exact R0'|]. intros log3 name nv w d y HL HP HB L M S G GA A B still. assert (W := six_laws _ _ _ _ _ _ HL L). split.
  - intros i Hi. assert (K : decays c r (fun t => d_p (d t) i - u_p w i)%R (fun t => world_v (d t) i - 0)%R).
    { apply H. eapply (tracking_motion kp kd (fun t => d_p (d t) i) (fun t => world_v (d t) i) _ (fun _ => u_p w i) (fun _ => 0%R) (fun _ => 0%R)); [exact (M i Hi)|apply still_twice|].
      intros t Ht. destruct (W t Ht) as [[O _] [Q _]]. apply (local_equal nv kp kd w); assumption. }
    intros t Ht. destruct (K t Ht) as [X Y]. rewrite !Rminus_0_r in *. split; assumption.
  - intros V. apply (H' log3 A B (fun t => world_w (d t)) (fun u => rot (d_R (d u)) (ang (accel nv (d_J (d u)) (d_a (d u)) (y u)))) still still HP).
    + intros t Ht. apply (W t Ht).
    + intros t Ht. exact HB.
    + exact S.
    + split; [|intros t Ht i Hi; exact (deriv_const 0 t)]. apply still_turning.
    + intros t Ht i Hi. destruct (W t Ht) as [[O _] [_ Q]]. unfold still, A, B, world_w.
      rewrite (rot_ext _ (ang (accel nv (d_J (d t)) (d_a (d t)) (y t))) (fun k => (kq * rot_error log3 (d_R (d t)) (u_R w) k - kw * ang (d_v (d t)) k)%R) i).
      2:{ intros k Hk. rewrite (Q k Hk), (proj1 (GA k Hk)), (proj2 (GA k Hk)). reflexivity. }
      rewrite rot_lin3. lra.
    + intros t Ht. unfold still, dot3. lra.
    + exact V.
Qed.
(** Without gains (as constructed) nothing brings the contact to rest. *)
Theorem point_drifts log3 name nv w d y : reads9 log3 -> point_runs log3 name nv w d y -> frame_moves nv d y -> even_gains w 0 0 ->
  forall t, (0 <= t)%R -> forall i, i < 3 -> world_v (d t) i = world_v (d 0%R) i /\ d_p (d t) i = (d_p (d 0%R) i + t * world_v (d 0%R) i)%R.
Proof.
  intros HL H M G t Ht i Hi. assert (L := point_laws _ _ _ _ _ _ HL H).
  assert (A0 : forall u, (0 <= u)%R -> forall k, k < 3 -> rot (d_R (d u)) (accel nv (d_J (d u)) (d_a (d u)) (y u)) k = 0%R).
  { intros u Hu k Hk. destruct (L u Hu) as [O Q]. unfold holds_point in Q. destruct (u_local w).
    - apply rot_zero. intros j Hj. rewrite (Q j Hj), (proj1 (G j Hj)), (proj2 (G j Hj)). ring.
    - rewrite (Q k Hk), (proj1 (G k Hk)), (proj2 (G k Hk)). ring. }
  destruct (lin_held (fun _ => idm) (fun _ => 0%R) (fun _ => 0%R) (fun u k => (d_p (d 0%R) k + u * world_v (d 0%R) k - d_p (d u) k)%R) (fun u => vminus (world_v (d u)) (world_v (d 0%R))) (fun _ _ => 0%R)) with (t := t) (i := i) as [X Y].
  - intros _ _. exact idm_orth.
  - intros u Hu k Hk. destruct (M k Hk u Hu) as [A B]. split.
    + eapply deriv_val; [apply (deriv_minus (fun u => d_p (d 0%R) k + u * world_v (d 0%R) k)%R (fun u => d_p (d u) k)); [|exact A]|].
      * apply (deriv_plus (fun _ => d_p (d 0%R) k) (fun u => u * world_v (d 0%R) k)%R); [apply deriv_const|].
        apply (deriv_mult (fun u => u) (fun _ => world_v (d 0%R) k)); [apply derivable_pt_lim_id|apply deriv_const].
      * unfold vminus. cbv beta. ring.
    + eapply deriv_val; [apply (deriv_minus (fun u => world_v (d u) k) (fun _ => world_v (d 0%R) k)); [exact B|apply deriv_const]|]. rewrite (A0 u Hu k Hk). ring.
  - intros u Hu k Hk. rewrite !idm_rot by exact Hk. ring.
  - intros k Hk. ring.
  - intros k Hk. unfold vminus. ring.
  - exact Ht.
  - exact Hi.
  - unfold vminus in Y. split; lra.
Qed.
