(** Centres of pressure recorded by the walking exercises: exercizes/ex_4_walking.py
    ("wk") and exercizes/test_cop_task.py ("tc"). *)
From Coq Require Import String List Arith Bool QArith Reals Qreals Lia Lra.
From Verif Require Import Scalar Outcome Linalg Constraint FormPhysSpec RSum Contacts ContactSpec ContactProofs ContactReal ContactWrench ContactRefute.
From Verif Require RobotModel.
From Verif Require Import FormSpec FrameTasksR FrameRefute ForceTasks ForceCop.
Import ListNotations.
Open Scope list_scope.
Open Scope nat_scope.

Section PR.
Context {K : num}.
(** f_RF[:, i] = T_RF.dot(getContactForce(...)), wk:174-178, 182-186 and tc:152-156,
    160-164; a result of another length than 6 is an error. *)
Definition foot_wrench (G : mat K) (f : vec K) : option (vec K) :=
  do w <- mvec G f; do _ <- guard (vlen w =? 6); Some w.
(** wk:179-181, 187-189 and tc:157-159, 165-167; the arrays start with zeros (tc:50-53)
    and every column is written once. *)
Definition foot_cop (w : vec K) : K * K :=
  if (nofQ (1 # 1000) <? vget w 2)%num then ((vget w 4 / vget w 2)%num, (- vget w 3 / vget w 2)%num) else (n0, n0).
(** The columns of f_.F and cop_.F; [None]: checkContact answers that the foot is not in
    contact. *)
Definition foot_record (x : option (mat K * vec K)) : option (vec K * (K * K)) :=
  match x with
  | None => Some (vzero 6, (n0, n0))
  | Some (G, f) => do w <- foot_wrench G f; Some (w, foot_cop w)
  end.
(** cop_LF_world, cop_RF_world and cop, tc:168-176. *)
Definition cop_world (M : RobotModel.se3 K) (c : K * K) (i : nat) : K :=
  (RobotModel.app3 (RobotModel.p_R M) (fun k => match k with 0 => fst c | 1 => snd c | _ => n0 end) i + RobotModel.p_p M i)%num.
Definition total_record (ML MR : RobotModel.se3 K) (xl xr : option (mat K * vec K)) : option (nat -> K) :=
  do a <- foot_record xl;
  do b <- foot_record xr;
  Some (fun i => ((cop_world ML (snd a) i * vget (fst a) 2 + cop_world MR (snd b) i * vget (fst b) 2) / (vget (fst a) 2 + vget (fst b) 2))%num).
End PR.

(** * Over the reals *)
Definition up : nat -> R := fun k => if k =? 2 then 1%R else 0%R.
Definition points (s : rcont) : nat -> nat -> R := fun i a => mget (k_pts s) a i.
Lemma mill : Q2R (1 # 1000) = (/ 1000)%R.
Proof. unfold Q2R. simpl. lra. Qed.
Lemma press_eq (x : R) : (Q2R (1 # 1000) < x)%R <-> (/ 1000 < x)%R.
Proof. rewrite mill. tauto. Qed.

(** The wrench of a foot. *)
Lemma wrench_value dbg name (s : rcont) (f : vec Rnum) : made rsq K6 dbg name s -> vlen f = 12 ->
  exists w, foot_wrench (k_gen s) f = Some w /\ vlen w = 6 /\ forall r, r < 6 -> vget w r = wrench true (k_pts s) (vget f) r.
Proof.
  intros Hm Hf. destruct (generator_meaning K6 dbg name s Hm) as (G1 & G2 & G3). cbn [nreg nforce is_six] in *.
  unfold foot_wrench, mvec. rewrite G2, Hf, G1. cbn [Nat.eqb obind vlen guard]. eexists. split; [reflexivity|]. split; [reflexivity|].
  intros r Hr. cbn [vget]. exact (G3 (vget f) r Hr).
Qed.
(** The sums written out. *)
Lemma cop_balance p h f c : (forall i, i < 4 -> p i 2 = h) -> centre_of_pressure 4 p up h f c ->
  (c 0%nat * resultant 4 f 2 = h * resultant 4 f 0 - moment 4 p f 1)%R /\ (c 1%nat * resultant 4 f 2 = h * resultant 4 f 1 + moment 4 p f 0)%R.
Proof.
  intros Hp [D M]. assert (M0 := M 0 ltac:(lia)). assert (M1 := M 1 ltac:(lia)).
  assert (P0 := Hp 0 ltac:(lia)). assert (P1 := Hp 1 ltac:(lia)). assert (P2 := Hp 2 ltac:(lia)). assert (P3 := Hp 3 ltac:(lia)).
  assert (D2 : c 2 = h) by (unfold dot, up in D; cbn [Nat.eqb] in D; lra).
  unfold crs, up, moment_at in M0, M1. cbn [Nat.eqb] in M0, M1.
  unfold resultant, moment, at_point in *. cbn [nsum Nat.mul Nat.add] in *. cbn [Rnum nadd n0 car] in *.
  unfold crs in *. rewrite P0, P1, P2, P3, D2 in *. split; lra.
Qed.
Theorem foot_recorded dbg name (s : rcont) (f : vec Rnum) h : made rsq K6 dbg name s -> vlen f = 12 -> (forall i, i < 4 -> points s i 2 = h) ->
  exists w r, foot_record (Some (k_gen s, f)) = Some (w, r) /\ (forall a, a < 3 -> vget w a = resultant 4 (vget f) a) /\
    ((/ 1000 < resultant 4 (vget f) 2)%R -> forall c, centre_of_pressure 4 (points s) up h (vget f) c ->
       fst r = (h * (resultant 4 (vget f) 0 / resultant 4 (vget f) 2) - c 0%nat)%R /\ snd r = (h * (resultant 4 (vget f) 1 / resultant 4 (vget f) 2) - c 1%nat)%R) /\
    ((resultant 4 (vget f) 2 <= / 1000)%R -> r = (0%R, 0%R)).
Proof.
  intros Hm Hf Hp. destruct (wrench_value dbg name s f Hm Hf) as (w & E & L & W). exists w, (foot_cop w). cbn [foot_record]. rewrite E. cbn [obind].
  split; [reflexivity|]. split; [intros a Ha; rewrite W by lia; unfold wrench; destruct (a <? 3) eqn:T; [reflexivity|apply Nat.ltb_ge in T; lia]|].
  assert (W2 : vget w 2 = resultant 4 (vget f) 2) by (rewrite W by lia; reflexivity).
  assert (W3 : vget w 3 = moment 4 (points s) (vget f) 0) by (rewrite W by lia; reflexivity).
  assert (W4 : vget w 4 = moment 4 (points s) (vget f) 1) by (rewrite W by lia; reflexivity).
  unfold foot_cop. cbn [Rnum nltb nofQ ndiv nopp n0 car] in *. split.
  - intros P c C. destruct (cop_balance (points s) h (vget f) c Hp C) as [B0 B1].
    assert (T : Rltb (Q2R (1 # 1000)) (vget w 2) = true) by (apply Rltb_true; rewrite mill, W2; exact P). rewrite T. cbn [fst snd].
    rewrite W2, W3, W4. assert (N : (resultant 4 (vget f) 2 <> 0)%R) by lra. split.
    + assert (X : moment 4 (points s) (vget f) 1 = (h * resultant 4 (vget f) 0 - c 0%nat * resultant 4 (vget f) 2)%R) by lra. rewrite X. field. exact N.
    + assert (X : moment 4 (points s) (vget f) 0 = (c 1%nat * resultant 4 (vget f) 2 - h * resultant 4 (vget f) 1)%R) by lra. rewrite X. field. exact N.
  - intros P. assert (T : Rltb (Q2R (1 # 1000)) (vget w 2) = false) by (apply Rltb_false; rewrite mill, W2; exact P). rewrite T. reflexivity.
Qed.

(** ** A foot of Talos *)
(** Contact points of tsid_biped.py:37-39 with the numbers of ex_4_talos_conf.py:28-33. *)
Definition talos_sole : mat Rnum :=
  @mkMat Rnum 3 4 (fun i j => match i, j with 0, 0 | 0, 1 => (- / 20)%R | 0, _ => (/ 10)%R | 1, 0 | 1, 2 => (- / 20)%R | 1, _ => (/ 20)%R | _, _ => 0%R end).
Definition toe_force : vec Rnum := @mkVec Rnum 12 (fun k => match k with 8 | 11 => 50%R | _ => 0%R end).
Lemma talos_foot dbg name : exists s : rcont, made_valid rsq K6 dbg name s /\ k_pts s = talos_sole /\ sat (k_ineq s) (vget toe_force).
Proof.
  destruct (build (rsq) K6 dbg name talos_sole (rv 0 0 1) (3 / 10)%R 5%R 1000%R eq_refl eq_refl eq_refl) as (s & E & N & M & A & B & P & _).
  assert (V : made_valid rsq K6 dbg name s).
  { exists (fun _ _ => n0), talos_sole, (rv 0 0 1), (3 / 10)%R, 5%R, 1000%R, s. split; [exact E|]. split; [|apply reach_init]. unfold positive. rewrite M, A, B.
    repeat split; cbn [Rnum nltb nleb n0]; [apply Rltb_true|apply Rleb_true|apply Rltb_true]; lra. }
  exists s. split; [exact V|]. split; [apply P; reflexivity|].
  assert (D : (/ 10 ^ 10 <= dot (vget (k_n s)) (vget (k_n s)))%R) by (rewrite N; unfold dot, rv, v3; cbn [vget]; lra).
  destruct (contact_meaning K6 dbg name s ltac:(discriminate) (valid_made _ _ _ _ _ V) D) as (t1 & t2 & F & G).
  apply (G _); [rewrite M; lra|rewrite M, B; unfold big, Q2R; simpl; lra|]. rewrite N in F. destruct F as (_ & _ & _ & H1 & H2).
  unfold dot, rv, v3 in H1, H2. cbn [vget] in H1, H2. assert (Z1 : t1 2 = 0%R) by lra. assert (Z2 : t2 2 = 0%R) by lra.
  rewrite N, M, A, B. split.
  - intros i Hi. cbn [npts] in Hi. unfold pyramid, dot, at_point, rv, v3, toe_force. cbn [vget]. rewrite Z1, Z2.
    destruct i as [|[|[|[|i]]]]; [| | | |lia]; cbn [Nat.mul Nat.add];
      (split; match goal with |- (Rabs ?x <= _)%R => replace x with 0%R by ring end; rewrite Rabs_R0; lra).
  - unfold total_normal, dot, at_point, rv, v3, toe_force. cbn [vget npts nsum Nat.mul Nat.add]. cbn [Rnum nadd n0 car]. lra.
Qed.

(** ** Both feet *)
(** Contacts of the CoP task ([ccon], placement of the frame, points, place of the
    forces); the frame is turned about the vertical only. *)
Definition level (c : rcon) : Prop := w_R c 2 0 = 0%R /\ w_R c 2 1 = 0%R /\ w_R c 2 2 = 1%R /\ w_R c 0 2 = 0%R /\ w_R c 1 2 = 0%R.
Definition slice (y : nat -> R) (c : rcon) : vec Rnum := @mkVec Rnum 12 (fun k => y (w_idx c + k)%nat).
Definition placed (c : rcon) : RobotModel.se3 Rnum := @RobotModel.mkSE3 Rnum (w_R c) (w_p c).
(** Vertical force on a foot, all of them; mean of the origins of the feet weighted with
    them; total force in the axes of the world. *)
Definition load (y : nat -> R) (c : rcon) : R := resultant 4 (vget (slice y c)) 2.
Definition mean_origin (l : list rcon) (y : nat -> R) (i : nat) : R := (lsum (fun c : rcon => w_p c i * load y c)%R l / lsum (load y) l)%R.
Definition total_force (l : list rcon) (y : nat -> R) (i : nat) : R := psum l (fun c j => rot (w_R c) (fvar y c j) i).

Lemma shared dbg name (s : rcont) h (y : nat -> R) (c : rcon) : made rsq K6 dbg name s -> (forall i, i < 4 -> points s i 2 = h) -> w_pts c = k_pts s -> mcols (k_pts s) = 4 -> level c ->
  (/ 1000 < load y c)%R -> exists w r, foot_record (Some (k_gen s, slice y c)) = Some (w, r) /\ vget w 2 = load y c /\
    rsum (mcols (w_pts c)) (fun j => dot3 up (rot (w_R c) (fvar y c j))) = load y c /\
    forall i, i < 2 -> (@cop_world Rnum (placed c) r i * vget w 2)%R =
      (2 * (w_p c i * load y c) - rsum (mcols (w_pts c)) (fun j => wpoint c j i * dot3 up (rot (w_R c) (fvar y c j))) + h * rsum (mcols (w_pts c)) (fun j => rot (w_R c) (fvar y c j) i))%R.
Proof.
  intros Hm Hp HP HC (L0 & L1 & L2 & L3 & L4) HL. destruct (wrench_value dbg name s (slice y c) Hm eq_refl) as (w & E & Lw & W).
  exists w, (foot_cop w). cbn [foot_record]. rewrite E. cbn [obind]. split; [reflexivity|].
  assert (W2 : vget w 2 = load y c) by (rewrite W by lia; reflexivity). split; [exact W2|].
  assert (W3 : vget w 3 = moment 4 (points s) (vget (slice y c)) 0) by (rewrite W by lia; reflexivity).
  assert (W4 : vget w 4 = moment 4 (points s) (vget (slice y c)) 1) by (rewrite W by lia; reflexivity).
  assert (T : Rltb (Q2R (1 # 1000)) (vget w 2) = true) by (apply Rltb_true; rewrite mill, W2; exact HL).
  assert (P0 := Hp 0 ltac:(lia)). assert (P1 := Hp 1 ltac:(lia)). assert (P2 := Hp 2 ltac:(lia)). assert (P3 := Hp 3 ltac:(lia)).
  unfold foot_cop. cbn [Rnum nltb nofQ ndiv nopp n0 car] in *. rewrite T. rewrite HP, HC. unfold wpoint. rewrite HP.
  assert (D : forall j, dot3 up (rot (w_R c) (fvar y c j)) = y (w_idx c + (3 * j + 2))%nat).
  { intros j. unfold dot3, up, rot, fvar. cbn [Nat.eqb]. rewrite L0, L1, L2. replace (w_idx c + 3 * j + 2) with (w_idx c + (3 * j + 2)) by lia. ring. }
  split.
  { rewrite (rsum_ext 4 _ (fun j => y (w_idx c + (3 * j + 2))%nat)) by (intros; apply D). reflexivity. }
  intros i Hi. rewrite (rsum_ext 4 (fun j => _ * dot3 up _)%R (fun j => (rot (w_R c) (fun k => mget (k_pts s) k j) i + w_p c i) * y (w_idx c + (3 * j + 2))%nat)%R) by (intros; rewrite D; reflexivity).
  unfold cop_world, placed. cbn [RobotModel.p_R RobotModel.p_p]. unfold RobotModel.app3. cbn [nsum fst snd]. cbn [Rnum nadd nmul n0 car].
  rewrite W2, W3, W4. assert (N : load y c <> 0%R) by lra.
  transitivity (w_R c i 0%nat * moment 4 (points s) (vget (slice y c)) 1 - w_R c i 1%nat * moment 4 (points s) (vget (slice y c)) 0 + w_p c i * load y c)%R.
  { field. exact N. }
  clear W W2 W3 W4 T E N HL.
  unfold load, moment, resultant, rot, fvar, at_point, slice. rewrite !rsum_S, !rsum_0. cbn [nsum vget Nat.mul Nat.add]. cbn [Rnum nadd n0 car]. unfold crs.
  assert (X : forall m, w_idx c + m + 0 = w_idx c + m) by (intros; lia).
  replace (w_R c i 2) with 0%R by (destruct i as [|[|i]]; [symmetry; exact L3|symmetry; exact L4|lia]).
  rewrite P0, P1, P2, P3. unfold points. rewrite !Nat.add_0_r, <- !Nat.add_assoc. cbn [Nat.add]. ring.
Qed.
Definition feet (onL onR : bool) (cL cR : rcon) : list rcon := (if onL then [cL] else []) ++ (if onR then [cR] else []).
Definition given (s : rcont) (y : nat -> R) (on : bool) (c : rcon) : option (mat Rnum * vec Rnum) := if on then Some (k_gen s, slice y c) else None.
Lemma given_record dbg name (s : rcont) h (y : nat -> R) (c : rcon) (on : bool) : made rsq K6 dbg name s -> (forall i, i < 4 -> points s i 2 = h) -> mcols (k_pts s) = 4 ->
  (on = true -> w_pts c = k_pts s /\ level c /\ (/ 1000 < load y c)%R) ->
  exists w r, foot_record (given s y on c) = Some (w, r) /\ vget w 2 = lsum (load y) (if on then [c] else []) /\
    psum (if on then [c] else []) (fun c j => dot3 up (rot (w_R c) (fvar y c j))) = lsum (load y) (if on then [c] else []) /\
    forall i, i < 2 -> (@cop_world Rnum (placed c) r i * vget w 2)%R =
      (2 * lsum (fun c : rcon => w_p c i * load y c) (if on then [c] else []) - psum (if on then [c] else []) (fun c j => wpoint c j i * dot3 up (rot (w_R c) (fvar y c j))) + h * total_force (if on then [c] else []) y i)%R.
Proof.
  intros Hm Hp HC HO. destruct on; cbn [given].
  - destruct (HO eq_refl) as (P & L & F). destruct (shared dbg name s h y c Hm Hp P HC L F) as (w & r & E & W & T & S). exists w, r. unfold total_force, psum, lsum. cbn [map fold_right].
    split; [exact E|]. cbn [Rnum car]. split; [rewrite W; ring|]. split; [rewrite T; ring|]. intros i Hi. rewrite (S i Hi). cbn [Rnum car]. ring.
  - exists (vzero 6), (0%R, 0%R). split; [reflexivity|]. unfold total_force, psum, lsum. cbn [map fold_right vzero vget]. split; [reflexivity|]. split; [reflexivity|].
    intros i Hi. change (@n0 Rnum) with 0%R. ring.
Qed.
Lemma lsum_two (g : rcon -> R) (onL onR : bool) cL cR : lsum g (feet onL onR cL cR) = (lsum g (if onL then [cL] else []) + lsum g (if onR then [cR] else []))%R.
Proof. unfold lsum, feet. destruct onL, onR; cbn [app map fold_right]; ring. Qed.
Theorem total_recorded dbg name (s : rcont) h (y : nat -> R) (cL cR : rcon) (onL onR : bool) : made rsq K6 dbg name s -> (forall i, i < 4 -> points s i 2 = h) -> mcols (k_pts s) = 4 ->
  (forall c, In c (feet onL onR cL cR) -> w_pts c = k_pts s /\ level c /\ (/ 1000 < load y c)%R) -> feet onL onR cL cR <> [] ->
  exists t, total_record (placed cL) (placed cR) (given s y onL cL) (given s y onR cR) = Some t /\
    (0 < true_normal_total (feet onL onR cL cR) up y)%R /\
    forall i, i < 2 -> t i = (2 * mean_origin (feet onL onR cL cR) y i - true_cop (feet onL onR cL cR) up y i +
      h * (total_force (feet onL onR cL cR) y i / true_normal_total (feet onL onR cL cR) up y))%R.
Proof.
  intros Hm Hp HC HF HN.
  destruct (given_record dbg name s h y cL onL Hm Hp HC) as (wl & rl & El & Wl & Tl & Sl); [intros ->; apply HF; unfold feet; left; reflexivity|].
  destruct (given_record dbg name s h y cR onR Hm Hp HC) as (wr & rr & Er & Wr & Tr & Sr); [intros ->; apply HF; unfold feet; apply in_or_app; right; left; reflexivity|].
  unfold total_record. rewrite El, Er. cbn [obind fst snd]. eexists. split; [reflexivity|].
  assert (NT : true_normal_total (feet onL onR cL cR) up y = lsum (load y) (feet onL onR cL cR)).
  { unfold true_normal_total, psum. rewrite !lsum_two. unfold psum in Tl, Tr. rewrite Tl, Tr. reflexivity. }
  assert (PO : (0 < lsum (load y) (feet onL onR cL cR))%R).
  { assert (A : forall c, In c (feet onL onR cL cR) -> (/ 1000 < load y c)%R) by (intros c Hc; apply HF; exact Hc). unfold feet, lsum in *.
    destruct onL, onR; cbn [app map fold_right] in *; [| | |congruence].
    - assert (A1 := A cL (or_introl eq_refl)). assert (A2 := A cR (or_intror (or_introl eq_refl))). lra.
    - assert (A1 := A cL (or_introl eq_refl)). lra.
    - assert (A1 := A cR (or_introl eq_refl)). lra. }
  split; [rewrite NT; exact PO|]. intros i Hi. specialize (Sl i Hi). specialize (Sr i Hi).
  unfold mean_origin, true_cop. rewrite NT. unfold total_force in *. unfold psum in *. rewrite !lsum_two in *.
  cbn [Rnum nadd nmul ndiv car] in *. rewrite Sl, Sr, Wl, Wr. field. lra.
Qed.
(** With the task satisfied: the plot shows twice the mean of the origins minus the
    reference. *)
Theorem total_mirrored dbg name (s : rcont) (y : nat -> R) (cL cR : rcon) (onL onR : bool) cname jk (q : copt Rnum) :
  made rsq K6 dbg name s -> (forall i, i < 4 -> points s i 2 = 0%R) -> mcols (k_pts s) = 4 ->
  (forall c, In c (feet onL onR cL cR) -> w_pts c = k_pts s /\ level c /\ (/ 1000 < load y c)%R) -> feet onL onR cL cR <> [] ->
  cop_made cname q -> (forall k, k < 3 -> q_n q k = up k) -> three_per_point (feet onL onR cL cR) -> tiles 0 (map cblock (feet onL onR cL cR)) (nforces (feet onL onR cL cR)) ->
  exists q' t, cop_step q (QCompute jk (feet onL onR cL cR)) = Ret q' tt /\ total_record (placed cL) (placed cR) (given s y onL cL) (given s y onR cR) = Some t /\
    (sat (q_c q') y -> forall i, i < 2 -> t i = (2 * mean_origin (feet onL onR cL cR) y i - q_ref q i)%R).
Proof.
  intros Hm Hp HC HF HN HQ HU H3 HT.
  destruct (total_recorded dbg name s 0 y cL cR onL onR Hm Hp HC HF HN) as (t & ET & PO & T).
  assert (KN : keeps_normal (feet onL onR cL cR) (q_n q)).
  { intros c Hc k Hk. destruct (HF c Hc) as (_ & (L0 & L1 & L2 & L3 & L4) & _). unfold rot, tr. rewrite !HU by lia. unfold up. cbn [Nat.eqb].
    destruct k as [|[|[|k]]]; [| | |lia]; cbn [Nat.eqb]; [rewrite L0|rewrite L1|rewrite L2]; ring. }
  assert (TN : true_normal_total (feet onL onR cL cR) (q_n q) y = true_normal_total (feet onL onR cL cR) up y) by (apply psum_ext; intros; unfold dot3; rewrite !HU by lia; reflexivity).
  destruct (cop_pins_local cname jk q (feet onL onR cL cR) HQ H3 HT KN) as (q' & EQ & SQ). exists q', t. split; [exact EQ|]. split; [exact ET|]. intros SA i Hi.
  rewrite (T i Hi). assert (X := proj1 (SQ y ltac:(rewrite TN; lra)) SA i ltac:(lia)).
  assert (Y : true_cop (feet onL onR cL cR) up y i = true_cop (feet onL onR cL cR) (q_n q) y i).
  { unfold true_cop. rewrite TN. f_equal. apply psum_ext. intros. unfold dot3. rewrite !HU by lia. reflexivity. }
  rewrite Y, X. cbn [Rnum car]. ring.
Qed.
(** One foot at the origin, pressed at the toes, the task satisfied. *)
Definition toe_foot : rcon := @mkCcon Rnum 0 12 talos_sole (fun i j => if i =? j then 1%R else 0%R) (fun _ => 0%R).
Definition toe_task (name : string) : copt Rnum := match cop_step (cop_new name) (@QRef Rnum (fun k => if k =? 0 then (/ 10)%R else 0%R)) with Ret s _ => s | _ => cop_new name end.
Lemma toe_level : level toe_foot.
Proof. repeat split. Qed.
Lemma toe_load : load (vget toe_force) toe_foot = 100%R.
Proof. unfold load, resultant, at_point, slice, toe_force. cbn. lra. Qed.
Theorem total_refuted dbg name cname jk : exists (s : rcont) (y : nat -> R) q q' t, made_valid rsq K6 dbg name s /\ sat (k_ineq s) y /\ cop_made cname q /\
  cop_step q (QCompute jk (feet true false toe_foot toe_foot)) = Ret q' tt /\ sat (q_c q') y /\ q_ref q 0 = (/ 10)%R /\
  total_record (placed toe_foot) (placed toe_foot) (given s y true toe_foot) (given s y false toe_foot) = Some t /\ t 0%nat = (- / 10)%R.
Proof.
  destruct (talos_foot dbg name) as (s & V & P & S). exists s, (vget toe_force), (toe_task cname).
  assert (QM : cop_made cname (toe_task cname)) by (apply reach_step with (s := cop_new cname) (o := @QRef Rnum (fun k => if k =? 0 then (/ 10)%R else 0%R)); [apply reach_init|exact I|reflexivity]).
  assert (H3 : three_per_point (feet true false toe_foot toe_foot)) by (intros c [<-|[]]; reflexivity).
  assert (HT : tiles 0 (map cblock (feet true false toe_foot toe_foot)) (nforces (feet true false toe_foot toe_foot))) by (cbn; auto).
  destruct (total_mirrored dbg name s (vget toe_force) toe_foot toe_foot true false cname jk (toe_task cname)) as (q' & t & EQ & ET & T); auto.
  - apply (valid_made _ _ _ _ _ V).
  - intros i Hi. unfold points. rewrite P. reflexivity.
  - rewrite P. reflexivity.
  - intros c [<-|[]]. split; [symmetry; exact P|]. split; [exact toe_level|rewrite toe_load; lra].
  - discriminate.
  - exists q', t. split; [exact V|]. split; [exact S|]. split; [exact QM|]. split; [exact EQ|].
    destruct (cop_meaning cname jk (toe_task cname) (feet true false toe_foot toe_foot) QM H3 HT) as (q2 & E2 & S2). assert (q2 = q') by congruence. subst q2.
    assert (SA : sat (q_c q') (vget toe_force)).
    { apply S2. intros r Hr. unfold psum, lsum, feet. cbn [app map fold_right]. change (mcols (w_pts toe_foot)) with 4. rewrite !rsum_S, !rsum_0.
      unfold wpoint, rot, dot3, fvar, toe_foot, toe_task. destruct r as [|[|[|r]]]; [| | |lia]; cbn; lra. }
    split; [exact SA|]. split; [reflexivity|]. split; [exact ET|]. rewrite (T SA 0 ltac:(lia)). unfold mean_origin, lsum, feet. cbn [app map fold_right]. rewrite toe_load. cbn. lra.
Qed.
