(** Properties C74 (motion tasks of the contacts) and C75 (measured forces).  Only
    statements; the proofs are in ContactMotionP.v and MeasuredForcesP.v.  A list [l] is any
    sequence of calls after construction; [told l], [told2 l], [heard l] collect what the user
    asked for last.  [jk], [jk']: contents of uninitialised memory. *)
From Coq Require Import String List Arith Bool ZArith Reals Lia Lra.
From Verif Require Import Scalar Outcome Linalg Constraint FormPhysSpec RSum MaskReal FrameTasks FrameTasksR FrameRefute ContactMotion ContactMotionP MeasuredForces MeasuredForcesP.
Import ListNotations.
Open Scope list_scope.
Open Scope nat_scope.

(** ** C74 contact motion constraints *)
Theorem C74_point : forall log3, reads9 log3 -> forall name nv jk jk' l,
  exists s0 s, point_new Rtrunc log3 jk jk' name nv = Some s0 /\ run (point_step Rtrunc log3) s0 l = Some s /\
  n_motion Rtrunc false (x_mask s) = 3%Z /\
  (exists kp kd, head3 (x_kp s) = Some kp /\ head3 (x_kd s) = Some kd /\
     forall i, i < 3 -> vget kp i = u_kp (told false l) i /\ vget kd i = u_kd (told false l) i) /\
  forall d : fdata Rnum, exists s', point_step Rtrunc log3 s (MCompute d) = Ret s' tt /\
    mrows (c_mat (h_c (x_h s'))) = 3 /\ mcols (c_mat (h_c (x_h s'))) = nv /\
    ((u_local (told false l) = false -> orthogonal (d_R d)) ->
     forall y, sat (h_c (x_h s')) y <-> holds_point (told false l) d (accel nv (d_J d) (d_a d) y)).
Proof. exact point_history. Qed.
Print Assumptions C74_point.
Theorem C74_six : forall log3, reads9 log3 -> forall name nv jk l,
  exists s0 s, six_new Rtrunc jk name nv = Some s0 /\ run (six_step Rtrunc log3) s0 l = Some s /\
  n_motion Rtrunc true (x_mask s) = 6%Z /\
  (vlen (x_kp s) = 6 /\ vlen (x_kd s) = 6 /\
   forall i, i < 6 -> vget (x_kp s) i = u_kp (told true l) i /\ vget (x_kd s) i = u_kd (told true l) i) /\
  forall d : fdata Rnum, exists s', six_step Rtrunc log3 s (MCompute d) = Ret s' tt /\
    mrows (c_mat (h_c (x_h s'))) = 6 /\ mcols (c_mat (h_c (x_h s'))) = nv /\
    forall y, sat (h_c (x_h s')) y <-> holds_frame log3 (told true l) d (accel nv (d_J d) (d_a d) y).
Proof. exact six_history. Qed.
Print Assumptions C74_six.
Theorem C74_two_frames : forall log3, reads9 log3 -> forall name nv jk jk' l, Forall three_gains l ->
  exists s0 s, two_new Rtrunc log3 jk jk' name nv = Some s0 /\ run (two_step Rtrunc log3) s0 l = Some s /\
  n_motion Rtrunc false (y_mask s) = 3%Z /\
  (exists kp kd, head3 (y_kp s) = Some kp /\ head3 (y_kd s) = Some kd /\
     forall i, i < 3 -> vget kp i = fst (told2 l) i /\ vget kd i = snd (told2 l) i) /\
  forall d1 d2 : fdata Rnum, exists s', two_step Rtrunc log3 s (WCompute d1 d2) = Ret s' tt /\
    mrows (c_mat (h_c (y_h s'))) = 3 /\ mcols (c_mat (h_c (y_h s'))) = nv /\
    (orthogonal (d_R d1) -> forall y, sat (h_c (y_h s')) y <->
       holds_together (told2 l) d1 d2 (accel nv (d_J d1) (d_a d1) y) (accel nv (d_J d2) (d_a d2) y)).
Proof. exact two_history. Qed.
Print Assumptions C74_two_frames.
(** Gains of a wrong size: the point contact rejects them ([told] ignores them), the two frame
    contact reads past the end. *)
Theorem C74_two_frames_size_refuted : forall log3 (s : tft Rnum) jk (v : vec Rnum), vlen v <> 3 ->
  two_step Rtrunc log3 s (WKp jk v) = Undef /\ two_step Rtrunc log3 s (WKd jk v) = Undef.
Proof. intros log3 s. exact (two_wrong_size log3 s). Qed.
Print Assumptions C74_two_frames_size_refuted.
(** A history with rejected gains and a later reference: what is asked is not trivial. *)
Definition some_calls (jk : vec Rnum) : list (mop Rnum) :=
  [MKp jk (@mkVec Rnum 3 (fun i => INR i)); MKp jk (@vzero Rnum 2); @MRef Rnum Rz (unit_k 1); MKd jk (@mkVec Rnum 3 (fun _ => 2%R)); MLocal false].
Example C74_case : forall jk, u_kp (told false (some_calls jk)) 2 = 2%R /\ u_kd (told false (some_calls jk)) 0 = 2%R /\
  u_p (told false (some_calls jk)) 1 = 1%R /\ u_local (told false (some_calls jk)) = false /\ orthogonal (u_R (told false (some_calls jk))) /\
  u_local (told true (some_calls jk)) = true.
Proof. intros jk. cbn. repeat split; try apply Rz_orth; try assumption; try lra. Qed.
Example C74_case_two : forall jk, Forall three_gains [WKp jk (@mkVec Rnum 3 (fun i => INR i)); WKd jk (@mkVec Rnum 3 (fun _ => 2%R))] /\
  fst (told2 [WKp jk (@mkVec Rnum 3 (fun i => INR i)); WKd jk (@mkVec Rnum 3 (fun _ => 2%R))]) 2 = 2%R.
Proof. intros jk. cbn. repeat constructor. Qed.

(** ** C75 measured forces *)
Theorem C75_power : forall six sup nv l (d : jdata Rnum), Forall (same_chain sup) l -> moved_by sup d ->
  exists s s' tau, run (@meas_step Rnum six) (meas_new nv) l = Some s /\ e_f s = fst (heard l) /\
    meas_step six s (ECompute d) = Ret s' (Some tau) /\ e_f s' = fst (heard l) /\ vlen tau = nv /\
    forall v, @nsum Rnum nv (fun c => vget tau c * v c)%R = power six d (heard l) (twist nv d v).
Proof. exact meas_history. Qed.
Print Assumptions C75_power.
Theorem C75_axes : forall six sup nv l1 l2 (d : jdata Rnum) (f g : rvec) s1 s2 s1' s2' t1 t2,
  Forall (same_chain sup) l1 -> Forall (same_chain sup) l2 -> moved_by sup d -> orthogonal (f_R d) ->
  heard l1 = (f, true) -> heard l2 = (g, false) -> in_world six d f g ->
  run (@meas_step Rnum six) (meas_new nv) l1 = Some s1 -> run (@meas_step Rnum six) (meas_new nv) l2 = Some s2 ->
  meas_step six s1 (ECompute d) = Ret s1' (Some t1) -> meas_step six s2 (ECompute d) = Ret s2' (Some t2) ->
  forall c, c < nv -> vget t1 c = vget t2 c.
Proof. exact meas_axes. Qed.
Print Assumptions C75_axes.
(** Two joints, only the first of which moves the frame; earlier computations in both axes. *)
Definition one_chain : nat -> bool := fun c => c =? 0.
Definition arm : jdata Rnum := mkJd (K := Rnum) Rz (fun r c => if c =? 0 then INR r else 0%R) one_chain.
Example C75_case : Forall (same_chain one_chain) [ELocal false; ECompute arm; @EForce Rnum (unit_k 4); ECompute arm] /\
  moved_by one_chain arm /\ orthogonal (f_R arm) /\
  heard [ELocal false; ECompute arm; @EForce Rnum (unit_k 4)] = (unit_k 4, false) /\
  power true arm (unit_k 4, false) (twist 2 arm (fun _ => 1%R)) = 3%R.
Proof.
  assert (M : moved_by one_chain arm).
  { split; [reflexivity|]. intros r c E. unfold arm, one_chain in *. cbn [f_J]. rewrite E. reflexivity. }
  split; [repeat constructor; apply M|]. split; [exact M|]. split; [exact Rz_orth|]. split; [reflexivity|].
  unfold power, power6, power3, dot3r, ang, rot, twist, unit_k. cbn [fst snd f_R f_J arm Nat.add Nat.eqb Rz].
  rewrite !rsum_S, !rsum_0. cbn. lra.
Qed.
