(** Properties C80-C82: the joint bound tasks and masks in double arithmetic.  Only
    statements; the proofs are in DoubleJoints.v, DoublePva.v, DoubleMasks.v.

    [Dnum]: IEEE binary64, rounding to nearest.  [val x]: the real value of a finite double,
    [fin x]: [x] is finite.  [uro] = 2^-53, [eta] = 2^-1075.
    [vslack l v h] = 3 uro |l - v| + h eta;  [pslack d w] = 8 uro (|d| + |w|) + 2^-200.
    [small x], [mild x]: finite of magnitude at most 2^500, 2^200.
    [step_ok h]: finite, between 2^-100 and 2^100. *)
From Coq Require Import String List Arith Bool ZArith QArith Reals Lia Lra Permutation.
From Flocq Require Import Core BinarySingleNaN.
From Verif Require Import Scalar FloatUtils Doubles Outcome Linalg Constraint Masks JointBounds JointTask JointPva JointRefute DoubleJoints DoublePva DoubleMasks DoubleCases.
Import ListNotations.
Open Scope R_scope.

(** ** C80 TaskJointBounds in doubles *)
Theorem C80_limits : forall name nv na (s s' : jb Dnum) v i, (na <= nv)%nat -> jmade name nv na s ->
  jb_step s (JCompute v) = Ret s' tt -> (i < na)%nat ->
  let vi := last_of na v i in let h := val (b_dt s) in
  let lo := vget (b_vlb s) i in let up := vget (b_vub s) i in
  let al := vget (b_alb s) i in let au := vget (b_aub s) i in
  let l := vget (c_lb (b_c s')) (nv - na + i) in let u := vget (c_ub (b_c s')) (nv - na + i) in
  small lo -> small up -> small vi -> fin al -> fin au -> fin (b_dt s) -> bpow radix2 (-500) <= h ->
  fin l /\ fin u /\ forall a : R,
  (val l <= a <= val u -> val al <= a <= val au /\
     val lo - vslack (val lo) (val vi) h <= val vi + h * a <= val up + vslack (val up) (val vi) h) /\
  (val al <= a <= val au ->
     val lo + vslack (val lo) (val vi) h <= val vi + h * a <= val up - vslack (val up) (val vi) h -> val l <= a <= val u).
Proof. exact jbd_limits. Qed.
Print Assumptions C80_limits.
(** No restriction on magnitudes: the computed interval contains 0. *)
Theorem C80_feasible : forall name nv na (s s' : jb Dnum) v i, (na <= nv)%nat -> jmade name nv na s ->
  jb_step s (JCompute v) = Ret s' tt -> (i < na)%nat ->
  let vi := last_of na v i in
  let lo := vget (b_vlb s) i in let up := vget (b_vub s) i in
  let al := vget (b_alb s) i in let au := vget (b_aub s) i in
  let l := vget (c_lb (b_c s')) (nv - na + i) in let u := vget (c_ub (b_c s')) (nv - na + i) in
  fin lo -> fin up -> fin vi -> fin (b_dt s) -> val lo <= val vi <= val up -> (al <=? n0)%num = true -> (n0 <=? au)%num = true ->
  (l <=? n0)%num = true /\ (n0 <=? u)%num = true /\ (l <=? u)%num = true.
Proof. exact jbd_feasible. Qed.
Print Assumptions C80_feasible.
(** Without the slack the first statement is false. *)
Theorem C80_exact_refuted : forall name, exists (s s' : jb Dnum), jmade name 1 1 s /\ jb_step s (JCompute (w1 (dq 0))) = Ret s' tt /\
  b_dt s = dq (1 # 10) /\ b_vub s = w1 (dq 1) /\ val (dq 1) = 1 /\ val (dq 0) = 0 /\
  val (dq 1) < val (dq 0) + val (b_dt s) * val (vget (c_ub (b_c s')) 0).
Proof. exact jbd_slack_needed. Qed.
Print Assumptions C80_exact_refuted.
(** A velocity which is not a number removes the limits of the joint. *)
Theorem C80_nan : forall name nv na (s s' : jb Dnum) v i, (na <= nv)%nat -> jmade name nv na s ->
  jb_step s (JCompute v) = Ret s' tt -> (i < na)%nat -> is_nan (last_of na v i : f64) = true ->
  is_nan (vget (c_lb (b_c s')) (nv - na + i) : f64) = true /\ is_nan (vget (c_ub (b_c s')) (nv - na + i) : f64) = true.
Proof. exact jbd_nan. Qed.
Print Assumptions C80_nan.
Example C80_case : forall name, exists (s s' : jb Dnum) v, jmade name 1 1 s /\ jb_step s (JCompute v) = Ret s' tt /\
  small (vget (b_vlb s) 0) /\ small (vget (b_vub s) 0) /\ small (last_of 1 v 0) /\ fin (vget (b_alb s) 0) /\ fin (vget (b_aub s) 0) /\
  fin (b_dt s) /\ bpow radix2 (-500) <= val (b_dt s) /\ val (vget (b_vlb s) 0) <= val (last_of 1 v 0) <= val (vget (b_vub s) 0) /\
  (vget (b_alb s) 0 <=? n0)%num = true /\ (n0 <=? vget (b_aub s) 0)%num = true.
Proof.
  intros name. destruct (jbd_case name) as (s & s' & M & E & D & V1 & V2 & A1 & A2). destruct dq_small as (S1 & S2 & S3 & S4 & S5 & S6 & S7).
  exists s, s', (w1 (dq (1 # 2))). rewrite D, V1, V2, A1, A2. cbn [w1 vget]. unfold last_of. cbn [w1 vget]. repeat (split; [assumption|]).
  split; [split; apply le_check; try (apply S1 || apply S2 || apply S3); vm_compute; reflexivity|]. split; vm_compute; reflexivity.
Qed.

(** ** C81 TaskJointPosVelAccBounds in doubles; [sq]: any implementation of the square root *)
Theorem C81_position : forall sq toZ name nv na dt (s s' : pva Dnum) (q v : vec Dnum) i, dmade sq toZ name nv na dt s ->
  pva_step sq toZ s (PCompute q v) = Ret s' tt -> p_ipos s = true ->
  let h := (two * dt)%num in let qi := last_of na q i in let vi := last_of na v i in
  let lo := vget (p_qmin s) i in let up := vget (p_qmax s) i in
  let l := vget (c_lb (p_c s')) i in let u := vget (c_ub (p_c s')) i in
  step_ok h -> mild lo -> mild up -> mild qi -> mild vi ->
  bpow radix2 (-300) <= val up - val qi -> bpow radix2 (-300) <= val qi - val lo -> (l <? u)%num = true ->
  fin l /\ fin u /\ forall a t, val l <= a <= val u -> 0 <= t <= val h ->
    val lo - pslack (val qi - val lo) (val h * val vi) <= val qi + val vi * t + a * (t * t) / 2 <= val up + pslack (val up - val qi) (val h * val vi).
Proof. exact pvad_position. Qed.
Print Assumptions C81_position.
Theorem C81_velocity : forall sq toZ name nv na dt (s s' : pva Dnum) (q v : vec Dnum) i, dmade sq toZ name nv na dt s ->
  pva_step sq toZ s (PCompute q v) = Ret s' tt -> p_ipos s = true ->
  let h := (two * dt)%num in let qi := last_of na q i in let vi := last_of na v i in
  let lo := vget (p_qmin s) i in let up := vget (p_qmax s) i in let V := vget (p_dqmax s) i in let A := vget (p_ddqmax s) i in
  let l := vget (c_lb (p_c s')) i in let u := vget (c_ub (p_c s')) i in
  step_ok h -> mild lo -> mild up -> mild qi -> mild vi -> mild V -> fin A ->
  bpow radix2 (-300) <= val up - val qi -> bpow radix2 (-300) <= val qi - val lo -> (l <? u)%num = true ->
  forall a, val l <= a <= val u ->
    (p_iacc s = true -> - val A <= a <= val A) /\
    (p_ivel s = true -> - val V - vslack (- val V) (val vi) (val h) <= val vi + val h * a <= val V + vslack (val V) (val vi) (val h)).
Proof. exact pvad_velocity. Qed.
Print Assumptions C81_velocity.
(** No restriction at all, also infinities and NaN: never an inverted interval. *)
Theorem C81_ordered : forall (sq : Dnum -> Dnum) toZ (s s' : pva Dnum) q v, pva_step sq toZ s (PCompute q v) = Ret s' tt ->
  vlen (c_lb (p_c s')) = p_na s /\ vlen (c_ub (p_c s')) = p_na s /\
  forall i, (vget (c_ub (p_c s')) i <? vget (c_lb (p_c s')) i)%num = false.
Proof. exact (fun sq toZ s s' q v => pva_ordered sq toZ s s' q v d_irrefl). Qed.
Print Assumptions C81_ordered.
(** The constructor succeeds in doubles. *)
Theorem C81_constructed : forall jk name nv na (dt : Dnum), (na <= nv)%nat -> (Z.of_nat na <= 2 ^ 53)%Z -> (n0 <? dt)%num = true ->
  exists s0, pva_new Dtrunc jk name nv na dt = Some (Some s0) /\ p_na s0 = na /\ p_dt s0 = (two * dt)%num /\
    vlen (c_lb (p_c s0)) = na /\ vlen (c_ub (p_c s0)) = na.
Proof. exact pvad_new. Qed.
Print Assumptions C81_constructed.
(** Range [0, 1], V = 2, A = 3, dt = 1/2, q = 1/2, v = 1/4. *)
Example C81_case : forall name, exists (s s' : pva Dnum) q v, dmade dsqrt Dtrunc name 1 1 (dq (1 # 2)) s /\
  pva_step dsqrt Dtrunc s (PCompute q v) = Ret s' tt /\ p_ipos s = true /\ p_ivel s = true /\ p_iacc s = true /\ step_ok (two * dq (1 # 2))%num /\
  mild (vget (p_qmin s) 0) /\ mild (vget (p_qmax s) 0) /\ mild (last_of 1 q 0) /\ mild (last_of 1 v 0) /\ mild (vget (p_dqmax s) 0) /\ fin (vget (p_ddqmax s) 0) /\
  bpow radix2 (-300) <= val (vget (p_qmax s) 0) - val (last_of 1 q 0) /\ bpow radix2 (-300) <= val (last_of 1 q 0) - val (vget (p_qmin s) 0) /\
  (vget (c_lb (p_c s')) 0 <? vget (c_ub (p_c s')) 0)%num = true.
Proof.
  intros name. destruct (pvad_case name) as (s & s' & M & E & P & Q1 & Q2 & Q3 & Q4 & I1 & I2 & L). exists s, s', (w1 (dq (1 # 2))), (w1 (dq (1 # 4))).
  rewrite Q1, Q2, Q3, Q4. unfold last_of. cbn [w1 vget]. do 5 (split; [assumption|]).
  assert (MI : forall x, fin x -> (x <=? p2 200)%num = true -> (- p2 200 <=? x)%num = true -> mild x) by (intros x F A B; split; [exact F|apply abs_check; try assumption; lia]).
  split; [split; [vm_compute; reflexivity|split; [apply low_check|apply up_check]; try lia; vm_compute; reflexivity]|].
  do 5 (split; [apply MI; vm_compute; reflexivity|]). split; [vm_compute; reflexivity|].
  assert (H0 : val (dq 0) = 0) by (rewrite val_SF; replace (B2SF (dq 0 : f64)) with (SpecFloat.S754_zero false) by (vm_compute; reflexivity); reflexivity).
  assert (H1 : val (dq 1) = 1) by (rewrite val_SF; replace (B2SF (dq 1 : f64)) with (SpecFloat.S754_finite false 4503599627370496 (-52)) by (vm_compute; reflexivity); unfold SF2R, F2R; cbn; lra).
  assert (H2 : val (dq (1 # 2)) = / 2) by (rewrite val_SF; replace (B2SF (dq (1 # 2) : f64)) with (SpecFloat.S754_finite false 4503599627370496 (-53)) by (vm_compute; reflexivity); unfold SF2R, F2R; cbn; lra).
  assert (H3 : bpow radix2 (-300) <= / 2) by (change (/ 2) with (bpow radix2 (-1)); apply bpow_le; lia).
  rewrite H0, H1, H2. split; [lra|]. split; [lra|]. exact L.
Qed.

(** ** C82 masks of doubles are counted exactly, in every order of summation *)
Theorem C82_count : forall (m : vec Dnum) t, mask01 m -> (Z.of_nat (vlen m) <= 2 ^ 53)%Z -> Permutation (sleaves t) (entries m) ->
  Dtrunc (seval t) = Z.of_nat (length (actives m)).
Proof. exact counted_any. Qed.
Print Assumptions C82_count.
Theorem C82_rows : forall jk cols off val (m : vec Dnum), mask01 m -> (Z.of_nat (vlen m) <= 2 ^ 53)%Z -> (off + vlen m <= cols)%nat ->
  exists S ax, set_mask Dtrunc jk cols off val m = MOk (length (actives m)) S ax /\
    selects off val (actives m) S /\ mcols S = cols /\ forall j i, nth_error (actives m) j = Some i -> ax j = i.
Proof. exact set_mask_D. Qed.
Print Assumptions C82_rows.
(** (0 + 1) + 1 and 1 + (0 + 1). *)
Example C82_case : exists (m : vec Dnum) t1 t2, mask01 m /\ vlen m = 3%nat /\ length (actives m) = 2%nat /\
  Permutation (sleaves t1) (entries m) /\ Permutation (sleaves t2) (entries m) /\ sleaves t1 <> sleaves t2.
Proof.
  exists (mkVec 3 (fun i => if Nat.eqb i 0 then n0 else n1)), (SNode (SNode (SLeaf n0) (SLeaf n1)) (SLeaf n1)), (SNode (SLeaf n1) (SNode (SLeaf n0) (SLeaf n1))).
  split; [|split; [reflexivity|split; [vm_compute; reflexivity|]]].
  - intros i Hi. destruct (Nat.eqb i 0) eqn:E; cbn [vget]; rewrite E; [left|right]; vm_compute; reflexivity.
  - cbn [sleaves app entries vlen seq map vget Nat.eqb]. split; [apply Permutation_refl|]. split; [apply perm_swap|]. intros H. injection H as H _. discriminate H.
Qed.
